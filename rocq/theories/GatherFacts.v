(** * GatherFacts: loading with get_or_instantiate and update_or_instantiate. *)
From Verif Require Export GatherSpec RowEnd.
From Verif Require Import RefuseFacts.

(** ** Records by type and unique id *)
Section Keys.
  Variable cs : dict cls.
  Notation K := (row_key cs).
  Lemma same_key_ok x y : same_key cs x y = true <-> K x = K y.
  Proof.
    unfold same_key. rewrite andb_true_iff, !String.eqb_eq. split; [intros [A B]; now apply injective_projections|intros ->; auto].
  Qed.
  Lemma seen_ok x l : existsb (same_key cs x) l = true <-> In (K x) (map K l).
  Proof.
    rewrite existsb_exists, in_map_iff. split.
    - intros (y & I & E). apply same_key_ok in E. exists y. auto.
    - intros (y & E & I). exists y. split; [exact I|]. now apply same_key_ok.
  Qed.
  Lemma seen_no x l : existsb (same_key cs x) l = false <-> ~ In (K x) (map K l).
  Proof. rewrite <- seen_ok. destruct (existsb (same_key cs x) l); split; congruence. Qed.
  Lemma firsts_app l : forall seen m, firsts cs seen (l ++ m) = firsts cs seen l ++ firsts cs (seen ++ firsts cs seen l) m.
  Proof.
    induction l as [|x l IH]; intros seen m; cbn [app firsts]; [now rewrite app_nil_r|]. destruct (existsb (same_key cs x) seen); [apply IH|].
    cbn [app]. rewrite IH, <- app_assoc. reflexivity.
  Qed.
  Lemma firsts_snoc l x : firsts cs [] (l ++ [x]) = if existsb (same_key cs x) (firsts cs [] l) then firsts cs [] l else firsts cs [] l ++ [x].
  Proof. rewrite firsts_app. cbn [app firsts]. destruct (existsb (same_key cs x) (firsts cs [] l)); [now rewrite app_nil_r|reflexivity]. Qed.
  Lemma firsts_keys l : forall k, In k (map K (firsts cs [] l)) <-> In k (map K l).
  Proof.
    induction l as [|x l IH] using rev_ind; [reflexivity|]. intros k. rewrite firsts_snoc, map_app, in_app_iff, <- IH. destruct (existsb (same_key cs x) (firsts cs [] l)) eqn:E.
    - apply seen_ok in E. split; [auto|]. intros [H|[<-|[]]]; auto.
    - rewrite map_app, in_app_iff. reflexivity.
  Qed.
  Lemma firsts_in l x : In x (firsts cs [] l) -> In x l.
  Proof.
    induction l as [|y l IH] using rev_ind; [intros []|]. rewrite firsts_snoc, in_app_iff. destruct (existsb (same_key cs y) (firsts cs [] l)); [auto|]. rewrite in_app_iff. tauto.
  Qed.
  Lemma firsts_once l : NoDup (map K (firsts cs [] l)).
  Proof.
    induction l as [|x l IH] using rev_ind; [constructor|]. rewrite firsts_snoc. destruct (existsb (same_key cs x) (firsts cs [] l)) eqn:E; [exact IH|].
    apply seen_no in E. rewrite map_app. cbn [map]. apply NoDup_snoc; auto.
  Qed.

  (** ** Records that say the same *)
  Definition equal_row (x y : row) : Prop := r_type x = r_type y /\ r_parent x = r_parent y /\
    (forall c, dget cs (r_type x) = Some c -> (forall f, In (f, None) (c_fields c) -> dget (r_kw y) f <> None) /\ forall f, In f (dkeys (c_fields c)) -> value_in c (r_kw x) f = value_in c (r_kw y) f).
  Definition shape (x y : row) : Prop := r_type x = r_type y /\ r_parent x = r_parent y /\ K x = K y /\
    forall c, dget cs (r_type x) = Some c -> forall f, In (f, None) (c_fields c) -> dget (r_kw y) f <> None.
  Lemma equal_key x y : good_row cs x -> equal_row x y -> K x = K y.
  Proof.
    intros (c & D & _ & CR & _) (T & _ & V). destruct (V c D) as (_ & V'). unfold row_key. rewrite <- T, D. f_equal. f_equal. apply map_ext_in. intros f I. unfold text_in. rewrite V'; [reflexivity|]. now apply (cr_ids c CR).
  Qed.
  Lemma shape_kids l l' k t : Forall2 shape l l' -> row_kids cs l k t = row_kids cs l' k t.
  Proof.
    intros F. unfold row_kids. induction F as [|x y l l' (T & P & E & _) F IH]; [reflexivity|]. cbn [filter].
    assert (Q : is_parent k x = is_parent k y) by (unfold is_parent; now rewrite P). rewrite Q, T. destruct (is_parent k y && String.eqb (r_type y) t); [|exact IH].
    cbn [map]. now rewrite E, IH.
  Qed.
  Lemma shape_keys l l' : Forall2 shape l l' -> map K l = map K l'.
  Proof. intros F. induction F as [|x y l l' (_ & _ & E & _) F IH]; [reflexivity|]. cbn [map]. now rewrite E, IH. Qed.
  Lemma equal_shape x y : good_row cs x -> equal_row x y -> shape x y.
  Proof. intros G E. pose proof (equal_key x y G E). destruct E as (T & P & V). repeat split; auto. intros c D. apply (V c D). Qed.
  Lemma shape_good x y : good_row cs x -> shape x y -> good_row cs y.
  Proof. intros (c & D & M & CR & RQ) (T & P & E & V). exists c. rewrite <- T. repeat (split; [assumption|]). intros f I. now apply (V c D). Qed.
  Lemma dataset_shape tops l l' : Forall2 shape l l' -> dataset cs tops l -> dataset cs tops l'.
  Proof.
    intros F DS. split.
    - intros y I. apply In_nth_error in I as (j & J). pose proof (Forall2_nth _ _ _ j F) as X. destruct (nth_error l j) as [x|] eqn:E; [|congruence].
      destruct X as (y' & J' & H). rewrite J in J'. injection J' as <-. apply (shape_good x y); [|exact H].
      destruct (da_class _ _ _ DS x) as (c & G); [eapply nth_error_In; eauto|]. exists c. exact G.
    - rewrite <- (shape_keys l l' F). apply DS.
    - intros a y b E. subst l'. apply Forall2_app_inv_r in F as (l1 & l2 & F1 & F2 & ->). inversion F2 as [|x ? l3 ? H F3]; subst.
      pose proof (da_parent _ _ _ DS l1 x l3 eq_refl) as P. destruct H as (T & PE & _). rewrite <- PE, <- T. destruct (r_parent x) as [p|]; [|exact P].
      destruct P as (N & z & c & I & Ez & D & C). split; [exact N|]. apply In_nth_error in I as (j & J). pose proof (Forall2_nth _ _ _ j F1) as X. rewrite J in X. destruct X as (z' & J' & (T' & _ & E' & _)).
      exists z', c. split; [eapply nth_error_In; eauto|]. split; [congruence|]. split; [now rewrite <- T'|exact C].
  Qed.
  Lemma dataset_prefix tops l m : dataset cs tops (l ++ m) -> dataset cs tops l.
  Proof.
    intros DS. split.
    - intros x I. apply (da_class _ _ _ DS). apply in_app_iff. now left.
    - pose proof (da_keys _ _ _ DS) as ND. rewrite map_app in ND. now apply NoDup_app_l in ND.
    - intros a x b E. apply (da_parent _ _ _ DS a x (b ++ m)). rewrite E, <- app_assoc. reflexivity.
  Qed.
End Keys.

(** ** The values *)
Lemma dget_part {A} (P : string -> bool) (d : dict A) k : dget (filter (fun kv => P (fst kv)) d) k = if P k then dget d k else None.
Proof.
  induction d as [|[k' v] d IH]; cbn [filter dget fst]; [now destruct (P k)|]. destruct (P k') eqn:E; cbn [dget]; rewrite IH; destruct (String.eqb_spec k k') as [->|N]; rewrite ?E; try reflexivity; destruct (P k); reflexivity.
Qed.
Lemma dget_ids c kw f : dget (ids_of c kw) f = if smem f (c_identifiers c) then dget kw f else None.
Proof. exact (dget_part (fun k => smem k (c_identifiers c)) kw f). Qed.
Lemma dget_rest c kw f : dget (rest_of c kw) f = if smem f (c_identifiers c) then None else dget kw f.
Proof. unfold rest_of. rewrite (dget_part (fun k => negb (smem k (c_identifiers c))) kw f). now destruct (smem f (c_identifiers c)). Qed.
Lemma dget_both c kw f : dget (ids_of c kw ++ rest_of c kw) f = dget kw f.
Proof. rewrite dget_app, dget_ids, dget_rest. destruct (smem f (c_identifiers c)); [now destruct (dget kw f)|reflexivity]. Qed.
Lemma merge_parts c kw : merge_kw (ids_of c kw) (rest_of c kw) = Ok (ids_of c kw ++ rest_of c kw).
Proof.
  unfold merge_kw. destruct (existsb _ _) eqn:E; [|reflexivity]. exfalso. apply existsb_exists in E as ((k & v) & I & M). cbn [fst] in M. unfold ids_of in I. apply filter_In in I as (_ & S1).
  unfold dmem in M. rewrite dget_rest in M. cbn [fst] in S1. rewrite S1 in M. discriminate.
Qed.
Lemma inst_ext c kw kw' : (forall f, dget kw f = dget kw' f) -> instantiate c kw [] None None = instantiate c kw' [] None None.
Proof. intros E. unfold instantiate. f_equal. induction (c_fields c) as [|fd l IH]; [reflexivity|]. cbn [rmapM]. now rewrite E, IH. Qed.
Lemma inst_parts c kw : instantiate c (ids_of c kw ++ rest_of c kw) [] None None = instantiate c kw [] None None.
Proof. apply inst_ext. intros f. apply dget_both. Qed.
Lemma uid_parts cs c x : dget cs (r_type x) = Some c -> (forall f, In f (c_identifiers c) -> dget (r_kw x) f <> None) -> create_unique_id c (ids_of c (r_kw x)) = Ok (snd (row_key cs x)).
Proof.
  intros D G. unfold create_unique_id, row_key. cbn [snd]. rewrite D.
  assert (X : forall l, incl l (c_identifiers c) -> rmapM (fun k => rbind (dict_item (ids_of c (r_kw x)) k) (fun v => Ok (py_str v))) l = Ok (map (text_in c (r_kw x)) l)).
  { induction l as [|k l IH]; intros L; [reflexivity|]. cbn [rmapM map]. rewrite IH by (intros z I; apply L; now right). assert (I : In k (c_identifiers c)) by (apply L; now left).
    unfold dict_item. rewrite dget_ids. pose proof I as I'. apply smem_In in I. rewrite I. specialize (G k I'). unfold text_in, value_in. destruct (dget (r_kw x) k); [reflexivity|congruence]. }
  rewrite X by apply incl_refl. reflexivity.
Qed.

(** the object with the values of [kw] *)
Definition has_vals (c : cls) (kw : string -> option val) (o : obj) : Prop :=
  map fst (o_vals o) = map fst (c_fields c) /\ forall f, In f (map fst (c_fields c)) -> dget (o_vals o) f = kw f.
Definition renew_by (attrs : dict val) (v : option val) (f : string) : option val :=
  match dget attrs f with None => v | Some v' => match v with Some v0 => if py_eq v0 v' then v else Some v' | None => Some v' end end.
Lemma update_vals c attrs : forall o g, NoDup (dkeys attrs) -> (forall k, In k (dkeys attrs) -> In k (dkeys (c_fields c))) ->
  has_vals c g o -> (forall f, In f (map fst (c_fields c)) -> g f <> None) ->
  exists vals, update_changed o attrs = (set_o_vals o vals, Ok tt) /\ has_vals c (fun f => renew_by attrs (g f) f) (set_o_vals o vals).
Proof.
  induction attrs as [|[k v] attrs IH]; intros o g ND IN (HK & HV) GS.
  - exists (o_vals o). cbn [update_changed]. assert (E : set_o_vals o (o_vals o) = o) by now destruct o. rewrite E. split; [reflexivity|]. split; [exact HK|exact HV].
  - inversion ND as [|? ? NI ND']; subst. assert (IK : In k (map fst (c_fields c))) by (apply IN; now left).
    destruct (g k) as [v0|] eqn:G; [|elim (GS k IK G)]. cbn [update_changed]. unfold getattr_val. rewrite (HV k IK), G.
    assert (NR : forall f u, f = k -> renew_by attrs u f = u) by (intros f u ->; unfold renew_by; destruct (dget attrs k) eqn:E; [|reflexivity]; elim NI; apply dget_Some_In in E; apply in_map_iff; exists (k, v1); auto).
    destruct (py_eq v0 v) eqn:PE.
    + destruct (IH o g ND') as (vals & E & K1 & V1); auto; [intros z I; apply IN; now right|split; auto|]. exists vals. split; [exact E|]. split; [exact K1|].
      intros f I. rewrite (V1 f I). unfold renew_by at 2. cbn [dget]. destruct (String.eqb_spec f k) as [->|N]; [|reflexivity]. rewrite (NR k _ eq_refl), G, PE. reflexivity.
    + unfold setattr_val. assert (M : dmem (o_vals o) k = true) by (unfold dmem; now rewrite (HV k IK), G). rewrite M.
      set (o1 := set_o_vals o (dset (o_vals o) k v)). set (g1 := fun f => if String.eqb f k then Some v else g f).
      destruct (IH o1 g1 ND') as (vals & E & K1 & V1).
      * intros z I. apply IN. now right.
      * split.
        -- unfold o1. cbn [o_vals set_o_vals]. rewrite <- HK. apply (dkeys_dset_known _ _ v0). now rewrite (HV k IK), G.
        -- intros f I. unfold o1, g1. cbn [o_vals set_o_vals]. rewrite dget_dset. destruct (String.eqb f k); [reflexivity|now apply HV].
      * intros f I. unfold g1. destruct (String.eqb f k); [discriminate|now apply GS].
      * exists vals. split; [rewrite E; reflexivity|]. split; [exact K1|]. intros f I. pose proof (V1 f I) as Y. cbn [o_vals set_o_vals] in Y |- *. rewrite Y. unfold g1.
        unfold renew_by at 2. cbn [dget]. destruct (String.eqb_spec f k) as [->|N]; [|reflexivity]. rewrite (NR k _ eq_refl), G, PE. reflexivity.
Qed.

(** ** The latest values *)
Section Latest.
  Variables (cs : dict cls) (c : cls).
  Notation K := (row_key cs).
  Lemma latest_snoc l x y f : latest cs c (l ++ [x]) y f = if same_key cs y x then renew c (r_kw x) (latest cs c l y f) f else latest cs c l y f.
  Proof. unfold latest. now rewrite fold_left_app. Qed.
  Lemma renew_some kw v f : v <> None -> renew c kw v f <> None.
  Proof. unfold renew. intros H. destruct (dget (rest_of c kw) f) as [v'|]; [|exact H]. destruct v as [v0|]; [|congruence]. destruct (py_eq v0 v'); congruence. Qed.
  Lemma latest_some l y f : value_in c (r_kw y) f <> None -> latest cs c l y f <> None.
  Proof.
    intros H. induction l as [|x l IH] using rev_ind; [exact H|]. rewrite latest_snoc. destruct (same_key cs y x); [now apply renew_some|exact IH].
  Qed.
  Lemma latest_id l y f : In f (c_identifiers c) -> latest cs c l y f = value_in c (r_kw y) f.
  Proof.
    intros I. apply smem_In in I. induction l as [|x l IH] using rev_ind; [reflexivity|]. rewrite latest_snoc, IH. destruct (same_key cs y x); [|reflexivity]. unfold renew. now rewrite dget_rest, I.
  Qed.
  Lemma latest_new l y f : ~ In (K y) (map K l) -> latest cs c l y f = value_in c (r_kw y) f.
  Proof.
    induction l as [|x l IH] using rev_ind; intros N; [reflexivity|]. rewrite map_app, in_app_iff in N. rewrite latest_snoc, IH by tauto. destruct (same_key cs y x) eqn:E; [|reflexivity].
    apply same_key_ok in E. elim N. right. left. auto.
  Qed.
  Lemma renew_self kw f : renew c kw (value_in c kw f) f = value_in c kw f.
  Proof.
    unfold renew. rewrite dget_rest. destruct (smem f (c_identifiers c)); [reflexivity|]. unfold value_in. destruct (dget kw f) as [v|] eqn:E; [|reflexivity]. now destruct (py_eq v v).
  Qed.
  Lemma dget_flat (g : string -> option val) ks f : dget (flat_map (fun k => match g k with Some v => [(k, v)] | None => [] end) ks) f = if smem f ks then g f else None.
  Proof.
    unfold smem. induction ks as [|k ks IH]; [reflexivity|]. cbn [flat_map existsb]. destruct (String.eqb_spec f k) as [->|N].
    - cbn [orb]. destruct (g k) as [v|] eqn:G; cbn [app dget]; [now rewrite String.eqb_refl|]. rewrite IH. destruct (existsb (String.eqb k) ks); congruence.
    - cbn [orb]. destruct (g k) as [v|]; cbn [app dget]; [|exact IH]. destruct (String.eqb_spec f k); [contradiction|exact IH].
  Qed.
End Latest.
Lemma settle_kw cs c l x f : dget cs (r_type x) = Some c -> In f (dkeys (c_fields c)) -> dget (r_kw (settle cs l x)) f = latest cs c l x f.
Proof. intros D I. unfold settle. rewrite D. cbn [r_kw]. rewrite (dget_flat (latest cs c l x)). apply smem_In in I. now rewrite I. Qed.
Lemma settle_parent cs l x : r_parent (settle cs l x) = r_parent x.
Proof. unfold settle. now destruct (dget cs (r_type x)). Qed.
Lemma settle_type cs l x : r_type (settle cs l x) = r_type x.
Proof. unfold settle. now destruct (dget cs (r_type x)). Qed.
Lemma settle_value cs c l x f : good_row cs x -> dget cs (r_type x) = Some c -> In f (dkeys (c_fields c)) -> value_in c (r_kw (settle cs l x)) f = latest cs c l x f.
Proof.
  intros (c' & D' & _ & CR & RQ) D I. rewrite D in D'. injection D' as <-. unfold value_in at 1. rewrite (settle_kw cs c l x f D I).
  destruct (latest cs c l x f) eqn:E; [reflexivity|]. exfalso. destruct (value_there c (r_kw x) f RQ I) as (v & V). apply (latest_some cs c l x f); congruence.
Qed.
Lemma settle_shape cs l x : good_row cs x -> shape cs x (settle cs l x).
Proof.
  intros G. pose proof G as (c & D & M & CR & RQ). split; [now rewrite settle_type|]. split; [now rewrite settle_parent|]. split.
  - unfold row_key. rewrite settle_type, D. f_equal. f_equal. apply map_ext_in. intros f I. unfold text_in. rewrite (settle_value cs c l x f G D) by now apply (cr_ids c CR). now rewrite latest_id.
  - intros c' D' f I. rewrite D in D'. injection D' as <-. assert (J : In f (dkeys (c_fields c))) by (apply in_map_iff; exists (f, None); auto).
    rewrite (settle_kw cs c l x f D J). apply latest_some. destruct (value_there c (r_kw x) f RQ J) as (v & V). congruence.
Qed.

(** ** The worlds *)
Lemma made_equal cs l l' x y o : Forall2 (shape cs) l l' -> r_type x = r_type y -> row_key cs x = row_key cs y ->
  (forall c f, dget cs (r_type x) = Some c -> In f (dkeys (c_fields c)) -> value_in c (r_kw x) f = value_in c (r_kw y) f) -> made_from cs l x o -> made_from cs l' y o.
Proof.
  intros F T E V (c & D & E1 & E2 & E3 & E4 & E5 & E6). exists c. split; [now rewrite <- T|]. do 4 (split; [assumption|]). split.
  - intros f I. rewrite (E5 f I). now apply V.
  - intros t f I. rewrite (E6 t f I), (shape_kids cs l l' _ _ F), E. reflexivity.
Qed.
Lemma inv_equal w a ad l l' w' : (forall x, In x l -> good_row (ad_classes ad) x) -> Forall2 (equal_row (ad_classes ad)) l l' -> inv w a ad l w' -> inv w a ad l' w'.
Proof.
  intros G F (d & EA & ER & ET & EL & EH & N1 & N2 & IJ & IB). set (cs := ad_classes ad) in *.
  assert (FS : Forall2 (shape cs) l l').
  { clear - G F. induction F as [|x y l l' H F IH]; constructor; [apply equal_shape; [apply G; now left|exact H]|apply IH; intros; apply G; now right]. }
  assert (LE : length l = length l') by (rewrite <- (map_length (row_key cs) l), <- (map_length (row_key cs) l'); now rewrite (shape_keys cs l l' FS)).
  exists d. do 3 (split; [assumption|]). split; [lia|]. do 3 (split; [assumption|]). split.
  - intros j y J. pose proof (Forall2_nth _ _ _ j F) as X. pose proof (Forall2_nth _ _ _ j FS) as XS. destruct (nth_error l j) as [x|] eqn:E; [|congruence].
    destruct X as (y' & J' & H). destruct XS as (y'' & J'' & HS). assert (y' = y) by congruence. assert (y'' = y) by congruence. subst y' y''.
    destruct (IJ j x E) as (B & o & Ho & Ao & Mo). destruct HS as (T & P & KE & _). change (row_key (ad_classes ad)) with (row_key cs). rewrite <- KE. split; [exact B|]. exists o. split; [exact Ho|]. split; [exact Ao|].
    apply (made_equal cs l l' x y o FS T KE); [|exact Mo]. intros c f D I. destruct H as (_ & _ & V). now apply (proj2 (V c D)).
  - intros t u r B. destruct (IB t u r B) as (j & x & J & E). pose proof (Forall2_nth _ _ _ j FS) as XS. rewrite J in XS. destruct XS as (y & J' & (_ & _ & KE & _)).
    exists j, y. split; [exact J'|]. change (row_key (ad_classes ad)) with (row_key cs) in E |- *. congruence.
Qed.
Lemma inv_touch w a ad l w' d t : nth_error (w_ads w) a = Some ad -> inv w a ad l w' -> w_ads w' = list_set (w_ads w) a (set_ad_store ad (SLocal d)) ->
  inv w a ad l (upd_store w' a (SLocal (touch d t))).
Proof.
  intros AD (d' & EA & ER & ET & EL & EH & N1 & N2 & IJ & IB) ED.
  assert (d' = d).
  { rewrite ED in EA. apply (f_equal (fun m => nth_error m a)) in EA. rewrite !(nth_list_set_eq _ _ _ _ AD) in EA. now injection EA. }
  subst d'. exists (touch d t). rewrite (upd_here w a ad AD d (touch d t) w' ED). cbn [w_ads w_heap w_redis w_trace set_ads]. split; [reflexivity|]. do 4 (split; [assumption|]).
  split; [now apply ext_nodup|]. split.
  - intros m b I. unfold touch in I. destruct (dget d t) eqn:E; [eapply N2; eauto|]. apply (In_dget _ _ _ (NoDup_dset d t [] N1)) in I. rewrite dget_dset in I.
    destruct (String.eqb m t); [injection I as <-; constructor|]. apply (N2 m b). now apply dget_Some_In.
  - split; [|intros t' u r; rewrite touch_bucket; apply IB]. intros j y J. rewrite touch_bucket. now apply IJ.
Qed.

(** ** One record *)
Section Step.
  Variables (upd : bool) (w : world) (a : aid) (ad : adapter) (tops : list string).
  Notation cs := (ad_classes ad).
  Notation K := (row_key cs).
  Notation n0 := (length (w_heap w)).
  Hypothesis AD : nth_error (w_ads w) a = Some ad.
  Definition fine (c : cls) (x : row) : Prop := NoDup (dkeys (r_kw x)) /\ (forall f, In f (c_identifiers c) -> dget (r_kw x) f <> None) /\
    (upd = true -> forall f, In f (dkeys (r_kw x)) -> In f (dkeys (c_fields c))).

  Lemma rest_once c kw : NoDup (dkeys kw) -> NoDup (dkeys (rest_of c kw)).
  Proof.
    unfold rest_of, dkeys. induction kw as [|[k v] kw IH]; intros ND; [constructor|]. inversion ND as [|? ? NI ND']; subst. cbn [filter fst]. destruct (negb _); [|now apply IH].
    cbn [map fst]. constructor; [|now apply IH]. intros I. apply NI. apply in_map_iff in I as (kv & E & I). apply filter_In in I as (I & _). apply in_map_iff. eauto.
  Qed.
  Lemma rest_in c kw f : In f (dkeys (rest_of c kw)) -> In f (dkeys kw).
  Proof. unfold rest_of, dkeys. rewrite !in_map_iff. intros (kv & E & I). apply filter_In in I as (I & _). eauto. Qed.
  Lemma mutate_at r f w1 o o' : nth_error (w_heap w1) r = Some o -> f o = (o', Ok tt) -> mutate r f w1 = (set_heap w1 (list_set (w_heap w1) r o'), Ok tt).
  Proof. intros H E. unfold mutate, bind. rewrite (hget_eq _ _ _ H). rewrite E. reflexivity. Qed.
  Lemma set_heap_same w1 r o : nth_error (w_heap w1) r = Some o -> set_heap w1 (list_set (w_heap w1) r o) = w1.
  Proof. intros H. rewrite (list_set_same _ _ _ H). now destruct w1. Qed.
  (** updating an object with its own values does nothing *)
  Lemma update_own attrs : forall o, (forall k v, In (k, v) attrs -> dget (o_vals o) k = Some v) -> update_changed o attrs = (o, Ok tt).
  Proof.
    induction attrs as [|[k v] attrs IH]; intros o H; [reflexivity|]. cbn [update_changed]. unfold getattr_val, setattr_val, dmem. rewrite (H k v) by now left.
    assert (X : set_o_vals o (dset (o_vals o) k v) = o) by (rewrite dset_same by (apply H; now left); now destruct o). rewrite X.
    rewrite IH by (intros; apply H; now right). now destruct (py_eq v v).
  Qed.

  Lemma gather_new G x c w' : dataset cs tops (G ++ [x]) -> dget cs (r_type x) = Some c -> fine c x -> inv w a ad G w' ->
    exists w'', gather_row upd a x w' = (w'', Ok tt) /\ inv w a ad (G ++ [x]) w''.
  Proof.
    intros DS D (NDk & GI & GF) IV. pose proof IV as (d & EA & _ & _ & _ & _ & _ & _ & _ & IB). pose proof (here w a ad AD d w' EA) as HL.
    destruct (da_class _ _ _ DS x) as (c' & D' & MN & CR & RQ); [apply in_app_iff; right; now left|]. rewrite D in D'. injection D' as <-.
    assert (NK : ~ In (K x) (map K G)).
    { pose proof (da_keys _ _ _ DS) as ND. rewrite map_app in ND. cbn [map] in ND. apply NoDup_remove_2 in ND. now rewrite app_nil_r in ND. }
    assert (NB : dget (bucket d (r_type x)) (snd (K x)) = None).
    { destruct (dget (bucket d (r_type x)) (snd (K x))) as [r|] eqn:E; [|reflexivity]. destruct (IB _ _ _ E) as (j & y & J & EY). elim NK. apply in_map_iff. exists y. split; [exact EY|eapply nth_error_In; eauto]. }
    set (wt := upd_store w' a (SLocal (touch d (r_type x)))).
    assert (IT : inv w a ad G wt) by (apply inv_touch; auto).
    destruct (row_step w a ad (G ++ [x]) AD) with (l := G) (x := x) (m := @nil row) (w' := wt) as (w'' & LR & IV'); auto.
    { intros y I. destruct (da_class _ _ _ DS y I) as (cy & Y). exists cy. exact Y. }
    { apply DS. }
    { intros l y m E. pose proof (da_parent _ _ _ DS l y m E) as P. destruct (r_parent y); [apply P|exact I]. }
    exists w''. split; [|exact IV']. rewrite <- LR. destruct HL as (HA & HS).
    assert (HT : nth_error (w_ads wt) a = Some (set_ad_store ad (SLocal (touch d (r_type x))))).
    { unfold wt. rewrite (upd_here w a ad AD d _ w' EA). cbn [w_ads set_ads]. eapply nth_list_set_eq; eauto. }
    destruct (inst_vals c (r_kw x) RQ (cr_fields c CR)) as (vals & EI & KV & VV).
    set (o0 := mkObj c vals (map (fun f => (f, [])) (c_kid_fields c)) (c_flags c) None StSuccess "") in *.
    assert (SG : st_get a (MClass c) (IdDict (ids_of c (r_kw x))) w' = (wt, Err ObjectNotFound)).
    { rewrite (st_get_local a (MClass c) (IdDict (ids_of c (r_kw x))) w' _ d (snd (K x)) (conj HA HS)) by (cbn [object_class_and_model fst get_uid]; now apply (uid_parts cs)).
      cbn [spec_name]. rewrite MN, NB. reflexivity. }
    assert (GO : st_get_or_instantiate a c (ids_of c (r_kw x)) (rest_of c (r_kw x)) w' =
      (r <- halloc o0 ;; st_add a r ;;; ret (r, true)) wt).
    { unfold st_get_or_instantiate, try_catch, bind at 1. rewrite SG. cbn [is_not_found]. unfold bind, lift. rewrite merge_parts, inst_parts, EI. reflexivity. }
    set (w1 := set_heap wt (w_heap wt ++ [o0])). set (r := length (w_heap wt)).
    assert (H1 : nth_error (w_heap w1) r = Some o0) by (unfold w1, r; cbn [w_heap set_heap]; rewrite nth_error_app2, Nat.sub_diag by lia; reflexivity).
    assert (U0 : get_unique_id o0 = Ok (snd (K x))).
    { unfold get_unique_id, get_identifiers. cbn [o0 o_cls]. rewrite <- (uid_parts cs c x D GI). unfold create_unique_id. f_equal.
      assert (X : forall l, incl l (c_identifiers c) -> rmapM (fun k => rbind (dict_item (dump_include o0 (c_identifiers c)) k) (fun v => Ok (py_str v))) l = rmapM (fun k => rbind (dict_item (ids_of c (r_kw x)) k) (fun v => Ok (py_str v))) l).
      { induction l as [|k l IH]; intros L; [reflexivity|]. cbn [rmapM]. rewrite IH by (intros z I; apply L; now right). assert (I : In k (c_identifiers c)) by (apply L; now left).
        unfold dict_item. rewrite dget_dump, dget_ids. cbn [o0 o_vals]. pose proof I as I'. apply smem_In in I. rewrite I. rewrite VV by now apply (cr_ids c CR). unfold value_in. specialize (GI k I'). destruct (dget (r_kw x) k); [reflexivity|congruence]. }
      apply X. apply incl_refl. }
    assert (L1 : is_local w1 a (set_ad_store ad (SLocal (touch d (r_type x)))) (touch d (r_type x))) by (split; [exact HT|reflexivity]).
    pose proof (st_add_local a r w1 _ _ o0 (snd (K x)) L1 H1 U0) as SA. rewrite touch_bucket in SA. change (get_type o0) with (c_modelname c) in SA. rewrite MN, NB in SA. cbv zeta in SA.
    match type of SA with _ = (?v, _) => set (w2 := v) in SA end.
    assert (H2 : exists o2, nth_error (w_heap w2) r = Some o2 /\ o_vals o2 = vals).
    { exists (set_o_adapter o0 (Some a)). split; [|reflexivity]. unfold w2. rewrite upd_store_heap. unfold attach. cbn [o0 o_adapter adapter_truthy]. cbn [w_heap set_heap]. rewrite upd_store_heap.
      eapply nth_list_set_eq. exact H1. }
    destruct H2 as (o2 & H2 & V2).
    assert (GU : (if upd then st_update_or_instantiate else st_get_or_instantiate) a c (ids_of c (r_kw x)) (rest_of c (r_kw x)) w' = (w2, Ok (r, true))).
    { assert (GG : st_get_or_instantiate a c (ids_of c (r_kw x)) (rest_of c (r_kw x)) w' = (w2, Ok (r, true))) by (rewrite GO; unfold bind, halloc; fold w1; fold r; rewrite SA; reflexivity).
      destruct upd; [|exact GG]. change (st_update_or_instantiate a c (ids_of c (r_kw x)) (rest_of c (r_kw x))) with
        (rb <- st_get_or_instantiate a c (ids_of c (r_kw x)) (rest_of c (r_kw x)) ;; mutate (fst rb) (fun o => update_changed o (rest_of c (r_kw x))) ;;; ret rb).
      unfold bind at 1. rewrite GG. cbn [fst]. unfold bind. rewrite (mutate_at r _ w2 o2 o2 H2).
      - now rewrite set_heap_same.
      - apply update_own. intros k v I. rewrite V2. assert (IK : In k (dkeys (rest_of c (r_kw x)))) by (apply in_map_iff; exists (k, v); auto).
        assert (GK : dget (r_kw x) k = Some v) by (unfold rest_of in I; apply filter_In in I as (I & _); now apply In_dget).
        rewrite VV by (apply GF; [reflexivity|now apply rest_in in IK]). unfold value_in. now rewrite GK. }
    transitivity ((match r_parent x with
      | None => ret tt
      | Some p => pr <- st_get a (MName (fst p)) (IdStr (snd p)) ;; parent <- hget pr ;; child <- hget r ;; parent' <- lift (add_child parent child) ;; hset pr parent'
      end) w2).
    - unfold gather_row. unfold bind at 1, get_adapter. rewrite HA. cbn [ad_classes set_ad_store]. rewrite D. unfold bind at 1. rewrite GU. reflexivity.
    - symmetry. unfold load_row. unfold bind at 1, get_adapter. rewrite HT. cbn [ad_classes set_ad_store]. rewrite D. unfold bind at 1, lift at 1. rewrite EI. unfold bind at 1, halloc. fold w1. fold r. unfold bind at 1. rewrite SA. reflexivity.
  Qed.

  Lemma gather_same G1 y G2 x c w' : dataset cs tops (G1 ++ y :: G2) -> dget cs (r_type x) = Some c -> fine c x -> K x = K y -> inv w a ad (G1 ++ y :: G2) w' ->
    exists w'', gather_row upd a x w' = (w'', Ok tt) /\ forall y', shape cs y y' ->
      (forall f, In f (dkeys (c_fields c)) -> value_in c (r_kw y') f = if upd then renew c (r_kw x) (value_in c (r_kw y) f) f else value_in c (r_kw y) f) ->
      inv w a ad (G1 ++ y' :: G2) w''.
  Proof.
    intros DS D (NDk & GI & GF) KE IV. pose proof IV as (d & EA & ERD & ET & EL & EH & N1 & N2 & IJ & IB). pose proof (here w a ad AD d w' EA) as (HA & HS).
    assert (IY : In y (G1 ++ y :: G2)) by (apply in_app_iff; right; now left).
    destruct (da_class _ _ _ DS y IY) as (c' & D' & MN & CR & RQ). assert (T : r_type x = r_type y) by (apply (f_equal fst) in KE; exact KE). rewrite <- T, D in D'. injection D' as <-. rewrite <- T in MN.
    assert (JY : nth_error (G1 ++ y :: G2) (length G1) = Some y) by (rewrite nth_error_app2, Nat.sub_diag by lia; reflexivity).
    destruct (IJ _ _ JY) as (BY & o & Ho & Ao & Mo). rewrite <- KE in BY. set (r := n0 + length G1) in *.
    assert (SG : st_get a (MClass c) (IdDict (ids_of c (r_kw x))) w' = (w', Ok r)).
    { rewrite (st_get_local a (MClass c) (IdDict (ids_of c (r_kw x))) w' _ d (snd (K x)) (conj HA HS)) by (cbn [object_class_and_model fst get_uid]; now apply (uid_parts cs)).
      cbn [spec_name]. rewrite MN. change (fst (K x)) with (r_type x) in BY. rewrite BY. rewrite touch_known by (eapply bucket_nonempty_known; eauto). f_equal.
      rewrite (upd_here w a ad AD d d w' EA). rewrite <- EA. now destruct w'. }
    assert (GG : st_get_or_instantiate a c (ids_of c (r_kw x)) (rest_of c (r_kw x)) w' = (w', Ok (r, false))) by (unfold st_get_or_instantiate, try_catch, bind at 1; rewrite SG; reflexivity).
    pose proof Mo as (c' & D' & E1 & E2 & E3 & E4 & E5 & E6). rewrite <- T, D in D'. injection D' as <-.
    assert (HV : has_vals c (fun f => value_in c (r_kw y) f) o) by (split; [exact E4|exact E5]).
    assert (GS : forall f, In f (map fst (c_fields c)) -> value_in c (r_kw y) f <> None) by (intros f I; destruct (value_there c (r_kw y) f RQ I) as (v & V); congruence).
    set (vals := if upd then o_vals (fst (update_changed o (rest_of c (r_kw x)))) else o_vals o). set (o' := set_o_vals o vals).
    assert (UV : upd = true -> update_changed o (rest_of c (r_kw x)) = (o', Ok tt)).
    { intros ->. destruct (update_vals c (rest_of c (r_kw x)) o (fun f => value_in c (r_kw y) f)) as (vs & UE & _); auto; [now apply rest_once|intros k I; apply GF; [reflexivity|now apply rest_in in I]|].
      unfold o', vals. rewrite UE. reflexivity. }
    assert (HV' : has_vals c (fun f => if upd then renew c (r_kw x) (value_in c (r_kw y) f) f else value_in c (r_kw y) f) o').
    { assert (X : set_o_vals o (o_vals o) = o) by now destruct o. unfold o', vals. destruct upd; [|rewrite X; exact HV].
      destruct (update_vals c (rest_of c (r_kw x)) o (fun f => value_in c (r_kw y) f)) as (vs & UE & UV'); auto; [now apply rest_once|intros k I; apply GF; [reflexivity|now apply rest_in in I]|].
      rewrite UE. exact UV'. }
    exists (set_heap w' (list_set (w_heap w') r o')). split.
    { unfold gather_row. unfold bind at 1, get_adapter. rewrite HA. cbn [ad_classes set_ad_store]. rewrite D. unfold bind at 1.
      assert (GU : (if upd then st_update_or_instantiate else st_get_or_instantiate) a c (ids_of c (r_kw x)) (rest_of c (r_kw x)) w' = (set_heap w' (list_set (w_heap w') r o'), Ok (r, false))).
      { destruct upd eqn:EU.
        - change (st_update_or_instantiate a c (ids_of c (r_kw x)) (rest_of c (r_kw x))) with
            (rb <- st_get_or_instantiate a c (ids_of c (r_kw x)) (rest_of c (r_kw x)) ;; mutate (fst rb) (fun o => update_changed o (rest_of c (r_kw x))) ;;; ret rb).
          unfold bind at 1. rewrite GG. cbn [fst]. unfold bind. rewrite (mutate_at r _ w' o o' Ho); [reflexivity|]. now apply UV.
        - rewrite GG. f_equal. unfold o', vals. assert (X : set_o_vals o (o_vals o) = o) by now destruct o. rewrite X. symmetry. now apply set_heap_same. }
      rewrite GU. reflexivity. }
    intros y' SH VAL. assert (FS : Forall2 (shape cs) (G1 ++ y :: G2) (G1 ++ y' :: G2)).
    { assert (RF : forall l, incl l (G1 ++ y :: G2) -> Forall2 (shape cs) l l).
      { induction l as [|z l IH]; intros L; [constructor|]. constructor; [|apply IH; intros q I; apply L; now right]. split; [reflexivity|]. split; [reflexivity|]. split; [reflexivity|].
        intros cz Dz f I. destruct (da_class _ _ _ DS z) as (cz' & Dz' & _ & _ & RZ); [apply L; now left|]. rewrite Dz in Dz'. injection Dz' as <-. now apply RZ. }
      apply Forall2_app; [apply RF; intros z I; apply in_app_iff; now left|]. constructor; [exact SH|]. apply RF. intros z I. apply in_app_iff. right. now right. }
    exists d. cbn [w_ads w_heap w_redis w_trace set_heap]. do 3 (split; [assumption|]). split; [rewrite list_set_length, EL, !app_length; reflexivity|].
    split; [intros q Q; rewrite nth_list_set_neq by (unfold r; lia); now apply EH|]. do 2 (split; [assumption|]). split.
    - intros j z J. destruct (Nat.eq_dec j (length G1)) as [->|NJ].
      + rewrite nth_error_app2, Nat.sub_diag in J by lia. injection J as <-. destruct SH as (TY & _ & KY & _). rewrite <- KY, <- KE. split; [exact BY|].
        exists o'. split; [eapply nth_list_set_eq; exact Ho|]. split; [exact Ao|]. exists c. split; [now rewrite <- TY, <- T|]. do 3 (split; [assumption|]).
        destruct HV' as (K1 & V1). split; [exact K1|]. split; [intros f I; rewrite (V1 f I); symmetry; now apply VAL|].
        intros t f I. cbn [o' set_o_vals o_kids]. rewrite (E6 t f I), (shape_kids cs _ _ _ _ FS), KY. reflexivity.
      + assert (J0 : nth_error (G1 ++ y :: G2) j = Some z).
        { destruct (Nat.lt_ge_cases j (length G1)); [rewrite nth_error_app1 in * by assumption; exact J|]. rewrite nth_error_app2 in * by assumption. destruct (j - length G1) eqn:Q; [lia|exact J]. }
        destruct (IJ j z J0) as (B & oz & Hz & Az & Mz). split; [exact B|]. exists oz. split; [rewrite nth_list_set_neq by (unfold r; lia); exact Hz|]. split; [exact Az|].
        apply (made_equal cs _ _ z z oz FS); auto.
    - intros t u q B. destruct (IB t u q B) as (j & z & J & E). pose proof (Forall2_nth _ _ _ j FS) as X. rewrite J in X. destruct X as (z' & J' & (_ & _ & E' & _)). exists j, z'. split; [exact J'|congruence].
  Qed.
End Step.

(** ** All records *)
Section Gather.
  Variables (upd : bool) (w : world) (a : aid) (ad : adapter) (tops : list string) (rows : list row).
  Notation cs := (ad_classes ad).
  Notation K := (row_key cs).
  Hypothesis AD : nth_error (w_ads w) a = Some ad.
  Hypothesis DS : dataset cs tops (firsts cs [] rows).
  Hypothesis GI : gives_ids cs rows.
  Hypothesis GF : upd = true -> gives_fields cs rows.

  Lemma part l m : rows = l ++ m -> dataset cs tops (firsts cs [] l).
  Proof. intros E. pose proof DS as H. rewrite E, firsts_app in H. now apply dataset_prefix in H. Qed.
  Lemma good_first l x : dataset cs tops (firsts cs [] l) -> In x (firsts cs [] l) -> good_row cs x.
  Proof. intros H I. destruct (da_class _ _ _ H x I) as (c & X). exists c. exact X. Qed.
  Lemma gathered_shape l : dataset cs tops (firsts cs [] l) -> Forall2 (shape cs) (firsts cs [] l) (gathered upd cs l).
  Proof.
    intros H. unfold gathered. assert (X : forall m, incl m (firsts cs [] l) -> Forall2 (shape cs) m (if upd then map (settle cs l) m else m)).
    { destruct upd; induction m as [|x m IH]; intros L; cbn [map]; constructor; try (apply IH; intros z I; apply L; now right).
      - apply settle_shape, (good_first l); [exact H|apply L; now left].
      - destruct (good_first l x H) as (c & D & _ & _ & RQ); [apply L; now left|]. repeat (split; [reflexivity|]). intros c' D'. rewrite D in D'. injection D' as <-. exact RQ. }
    apply X, incl_refl.
  Qed.
  Lemma gathered_data l : dataset cs tops (firsts cs [] l) -> dataset cs tops (gathered upd cs l).
  Proof. intros H. apply (dataset_shape cs tops (firsts cs [] l)); [now apply gathered_shape|exact H]. Qed.

  Lemma row_fine l x m c : rows = l ++ x :: m -> dget cs (r_type x) = Some c -> fine upd c x.
  Proof.
    intros E D. assert (I : In x rows) by (rewrite E; apply in_app_iff; right; now left). destruct (GI x c I D) as (A & B). split; [exact A|]. split; [exact B|]. intros U f. now apply (GF U x c f).
  Qed.
  Lemma settle_other l x y : good_row cs y -> K y <> K x -> equal_row cs (settle cs l y) (settle cs (l ++ [x]) y).
  Proof.
    intros G N. split; [now rewrite !settle_type|]. split; [now rewrite !settle_parent|]. intros c D. rewrite settle_type in D. split.
    - intros f I. destruct (settle_shape cs (l ++ [x]) y G) as (_ & _ & _ & Q). now apply (Q c D).
    - intros f I. rewrite !(settle_value cs c _ y f G D I), latest_snoc. destruct (same_key cs y x) eqn:E; [|reflexivity]. apply same_key_ok in E. contradiction.
  Qed.

  Lemma gather_step l x m w' : rows = l ++ x :: m -> inv w a ad (gathered upd cs l) w' ->
    exists w'', gather_row upd a x w' = (w'', Ok tt) /\ inv w a ad (gathered upd cs (l ++ [x])) w''.
  Proof.
    intros ER IV. pose proof (part l (x :: m) ER) as D1. assert (D2 : dataset cs tops (firsts cs [] (l ++ [x]))) by (apply (part (l ++ [x]) m); now rewrite <- app_assoc).
    assert (NDK : NoDup (map K (firsts cs [] l))) by apply firsts_once.
    rewrite firsts_snoc in D2. destruct (existsb (same_key cs x) (firsts cs [] l)) eqn:EX.
    - apply seen_ok in EX. apply in_map_iff in EX as (y & EY & IY). apply in_split in IY as (F1 & F2 & EF).
      assert (GY : good_row cs y) by (apply (good_first l); [exact D1|rewrite EF; apply in_app_iff; right; now left]). pose proof GY as (c & D & _ & _ & RQ).
      assert (T : r_type x = r_type y) by (symmetry; apply (f_equal fst) in EY; exact EY). rewrite <- T in D.
      set (S := fun z => if upd then settle cs l z else z). assert (EG : gathered upd cs l = map S F1 ++ S y :: map S F2).
      { unfold gathered, S. rewrite EF. destruct upd; [now rewrite map_app|now rewrite !map_id]. }
      pose proof (gathered_data l D1) as DG. rewrite EG in DG, IV.
      assert (SY : shape cs y (S y)).
      { unfold S. destruct upd; [now apply settle_shape|]. repeat (split; [reflexivity|]). intros c' D'. rewrite <- T, D in D'. injection D' as <-. exact RQ. }
      destruct (gather_same upd w a ad tops AD (map S F1) (S y) (map S F2) x c w' DG D (row_fine l x m c ER D)) as (w'' & E & H); [|exact IV|].
      { destruct SY as (_ & _ & KS & _). congruence. }
      exists w''. split; [exact E|]. set (S' := fun z => if upd then settle cs (l ++ [x]) z else z).
      assert (EG' : gathered upd cs (l ++ [x]) = map S' F1 ++ S' y :: map S' F2).
      { unfold gathered, S'. rewrite firsts_snoc. replace (existsb (same_key cs x) (firsts cs [] l)) with true by (symmetry; apply seen_ok; rewrite <- EY; apply in_map; rewrite EF; apply in_app_iff; right; now left).
        rewrite EF. destruct upd; [now rewrite map_app|now rewrite !map_id]. }
      rewrite EG'. assert (SY' : shape cs y (S' y)).
      { unfold S'. destruct upd; [now apply settle_shape|]. repeat (split; [reflexivity|]). intros c' D'. rewrite <- T, D in D'. injection D' as <-. exact RQ. }
      assert (NK : forall z, In z F1 \/ In z F2 -> K z <> K x).
      { intros z I E'. rewrite EF, map_app in NDK. cbn [map] in NDK. apply NoDup_remove_2 in NDK. apply NDK. apply in_app_iff. rewrite EY, <- E'. destruct I; [left|right]; now apply in_map. }
      assert (GZ : forall z, In z F1 \/ In z F2 -> good_row cs z).
      { intros z I. apply (good_first l); [exact D1|]. rewrite EF. apply in_app_iff. destruct I; [now left|right; now right]. }
      assert (EQ : forall z, In z F1 \/ In z F2 -> equal_row cs (S z) (S' z)).
      { intros z I. unfold S, S'. destruct upd; [apply settle_other; [now apply GZ|now apply NK]|]. split; [reflexivity|]. split; [reflexivity|]. intros cz Dz. split; [|reflexivity].
        destruct (GZ z I) as (cz' & Dz' & _ & _ & RZ). rewrite Dz in Dz'. injection Dz' as <-. exact RZ. }
      assert (EQL : forall F, (forall z, In z F -> In z F1 \/ In z F2) -> Forall2 (equal_row cs) (map S F) (map S' F)).
      { induction F as [|z F IH]; intros Q; cbn [map]; constructor; [apply EQ, Q; now left|apply IH; intros; apply Q; now right]. }
      assert (RS : equal_row cs (S' y) (S' y)).
      { split; [reflexivity|]. split; [reflexivity|]. intros c' D'. split; [|reflexivity]. destruct SY' as (TS & _ & _ & Q). rewrite <- TS in D'. now apply Q. }
      apply (inv_equal w a ad (map S F1 ++ S' y :: map S F2)).
      + intros z I. apply in_app_iff in I as [I|[<-|I]].
        * destruct (da_class _ _ _ DG z) as (cz & Z); [apply in_app_iff; now left|]. exists cz. exact Z.
        * exact (shape_good cs y (S' y) GY SY').
        * destruct (da_class _ _ _ DG z) as (cz & Z); [apply in_app_iff; right; now right|]. exists cz. exact Z.
      + apply Forall2_app; [apply EQL; auto|]. constructor; [exact RS|apply EQL; auto].
      + apply H.
        * destruct SY as (A1 & A2 & A3 & A4), SY' as (B1 & B2 & B3 & B4). split; [congruence|]. split; [congruence|]. split; [congruence|]. intros c' D' f I. rewrite <- A1 in D'. now apply (B4 c').
        * intros f I. unfold S, S'. destruct upd; [|reflexivity]. rewrite T in D. rewrite !(settle_value cs c _ y f GY D I), latest_snoc.
          replace (same_key cs y x) with true by (symmetry; now apply same_key_ok). reflexivity.
    - assert (IX : In x (firsts cs [] l ++ [x])) by (apply in_app_iff; right; now left). destruct (da_class _ _ _ D2 x IX) as (c & D & MN & CR & RQ). assert (GX : good_row cs x) by (exists c; auto).
      assert (NK : ~ In (K x) (map K (firsts cs [] l))) by now apply seen_no.
      assert (RX : shape cs x x) by (repeat (split; [reflexivity|]); intros c' D'; rewrite D in D'; injection D' as <-; exact RQ).
      assert (DG : dataset cs tops (gathered upd cs l ++ [x])).
      { apply (dataset_shape cs tops (firsts cs [] l ++ [x])); [|exact D2]. apply Forall2_app; [now apply gathered_shape|]. constructor; [exact RX|constructor]. }
      destruct (gather_new upd w a ad tops AD (gathered upd cs l) x c w' DG D (row_fine l x m c ER D) IV) as (w'' & E & H). exists w''. split; [exact E|].
      apply (inv_equal w a ad (gathered upd cs l ++ [x])); [|clear H|exact H].
      + intros z I. destruct (da_class _ _ _ DG z I) as (cz & Z). exists cz. exact Z.
      + unfold gathered. rewrite firsts_snoc, EX. destruct upd.
        * rewrite map_app. cbn [map]. apply Forall2_app.
          -- assert (GZ : forall F, incl F (firsts cs [] l) -> Forall2 (equal_row cs) (map (settle cs l) F) (map (settle cs (l ++ [x])) F)); [|apply GZ, incl_refl].
             induction F as [|z F IH]; intros L; cbn [map]; constructor; [|apply IH; intros q I; apply L; now right]. assert (Iz : In z (firsts cs [] l)) by (apply L; now left).
             apply settle_other; [now apply (good_first l)|]. intros Ez. apply NK. rewrite <- Ez. now apply in_map.
          -- constructor; [|constructor]. split; [now rewrite settle_type|]. split; [now rewrite settle_parent|]. intros c' D'. rewrite D in D'. injection D' as <-. split.
             ++ intros f I. destruct (settle_shape cs (l ++ [x]) x GX) as (_ & _ & _ & Q). now apply (Q c D).
             ++ intros f I. rewrite (settle_value cs c _ x f GX D I), latest_snoc. rewrite (latest_new cs c l x f) by (rewrite <- firsts_keys; exact NK).
                destruct (same_key cs x x); [|reflexivity]. now rewrite renew_self.
        * assert (GZ : forall F, incl F (firsts cs [] l ++ [x]) -> Forall2 (equal_row cs) F F); [|apply GZ, incl_refl].
          induction F as [|z F IH]; intros L; constructor; [|apply IH; intros q I; apply L; now right]. split; [reflexivity|]. split; [reflexivity|]. intros cz Dz. split; [|reflexivity].
          destruct (da_class _ _ _ D2 z) as (cz' & Dz' & _ & _ & RZ); [apply L; now left|]. rewrite Dz in Dz'. injection Dz' as <-. exact RZ.
  Qed.

  Lemma gather_rest m : forall l w', rows = l ++ m -> inv w a ad (gathered upd cs l) w' -> exists w'', gather upd a m w' = (w'', Ok tt) /\ inv w a ad (gathered upd cs rows) w''.
  Proof.
    induction m as [|x m IH]; intros l w' ER H.
    - exists w'. split; [reflexivity|]. rewrite app_nil_r in ER. now subst.
    - destruct (gather_step l x m w' ER H) as (w1 & E & H1). destruct (IH (l ++ [x]) w1) as (w2 & E2 & H2); [now rewrite <- app_assoc|exact H1|].
      exists w2. split; [|exact H2]. cbn [gather]. unfold bind. now rewrite E.
  Qed.
  Lemma gather_all : ad_store ad = SLocal [] -> exists w', gather upd a rows w = (w', Ok tt) /\ inv w a ad (gathered upd cs rows) w'.
  Proof.
    intros ES. apply (gather_rest rows []); [reflexivity|]. unfold gathered. destruct upd; now apply inv_start.
  Qed.
End Gather.
