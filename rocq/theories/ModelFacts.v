(** * ModelFacts: lemmas about DiffSyncModel. *)
From Coq Require Import Ascii.
From Verif Require Export BaseFacts Spec.

(** ** Unique ids *)

(** cut at the first "__" *)
Fixpoint cut (s : string) : string * option string :=
  match s with
  | EmptyString => (EmptyString, None)
  | String c s' =>
      match s' with
      | String c' s'' =>
          if (Ascii.eqb c "_" && Ascii.eqb c' "_")%char then (EmptyString, Some s'')
          else let r := cut s' in (String c (fst r), snd r)
      | EmptyString => (String c EmptyString, None)
      end
  end.

Lemma cut_cons c s :
  cut (String c s) = match s with
                     | String c' s'' =>
                         if (Ascii.eqb c "_" && Ascii.eqb c' "_")%char then (EmptyString, Some s'')
                         else (String c (fst (cut s)), snd (cut s))
                     | EmptyString => (String c EmptyString, None)
                     end.
Proof. destruct s; reflexivity. Qed.

Lemma append_assoc (a b c : string) : ((a ++ b) ++ c = a ++ b ++ c)%string.
Proof. induction a as [|x a IH]; simpl; [reflexivity|now rewrite IH]. Qed.
Lemma append_nil_r (a : string) : (a ++ "" = a)%string.
Proof. induction a as [|x a IH]; simpl; [reflexivity|now rewrite IH]. Qed.

Lemma no_sub_tail sub c s : ~ substring_of sub (String c s) -> ~ substring_of sub s.
Proof. intros H [a [b E]]. apply H. exists (String c a), b. simpl. now rewrite E. Qed.

Lemma cut_none s : ~ substring_of "__" s -> cut s = (s, None).
Proof.
  induction s as [|c s IH]; intros H; [reflexivity|].
  rewrite cut_cons. destruct s as [|c' s'']; [reflexivity|].
  destruct (Ascii.eqb_spec c "_"); [destruct (Ascii.eqb_spec c' "_")|].
  - subst. exfalso. apply H. exists "", s''. reflexivity.
  - simpl andb. rewrite IH by (eapply no_sub_tail; eauto). reflexivity.
  - simpl andb. rewrite IH by (eapply no_sub_tail; eauto). reflexivity.
Qed.

Definition ends_with_underscore (s : string) : Prop := exists a, s = (a ++ "_")%string.

Lemma no_end_tail c s : ~ ends_with_underscore (String c s) -> ~ ends_with_underscore s.
Proof. intros H [a E]. apply H. exists (String c a). simpl. now rewrite E. Qed.

Lemma cut_some s t : ~ substring_of "__" s -> ~ ends_with_underscore s -> cut (s ++ "__" ++ t) = (s, Some t).
Proof.
  induction s as [|c s IH]; intros H1 H2; [reflexivity|].
  change (String c s ++ "__" ++ t)%string with (String c (s ++ "__" ++ t)).
  rewrite cut_cons. rewrite IH by (eauto using no_sub_tail, no_end_tail).
  destruct s as [|c' s'']; simpl append.
  - destruct (Ascii.eqb_spec c "_"); [|reflexivity]. subst. exfalso. apply H2. now exists "".
  - destruct (Ascii.eqb_spec c "_"); [destruct (Ascii.eqb_spec c' "_")|]; try reflexivity.
    subst. exfalso. apply H1. exists "", s''. reflexivity.
Qed.

Lemma join_cons x y l : join "__" (x :: y :: l) = (x ++ "__" ++ join "__" (y :: l))%string.
Proof. reflexivity. Qed.

Definition clean (s : string) : Prop := ~ substring_of "__" s /\ ~ ends_with_underscore s.

Lemma join_inj l m : length l = length m -> Forall clean l -> Forall clean m -> join "__" l = join "__" m -> l = m.
Proof.
  revert m. induction l as [|x l IH]; intros [|y m] HL Hl Hm E; try discriminate; [reflexivity|].
  inversion Hl as [|? ? [X1 X2] Hl']; inversion Hm as [|? ? [Y1 Y2] Hm']; subst.
  destruct l as [|x2 l], m as [|y2 m]; try discriminate.
  - simpl in E. now subst.
  - rewrite !join_cons in E. pose proof (cut_some x (join "__" (x2 :: l)) X1 X2) as C.
    rewrite E, (cut_some y _ Y1 Y2) in C. injection C as -> C.
    f_equal. apply IH; auto.
Qed.

Lemma rmapM_ids o l :
  forall r, rmapM (fun k => rbind (dict_item (get_identifiers o) k) (fun v => Ok (py_str v))) l = Ok r ->
  map (fun k => option_map py_str (dget (get_identifiers o) k)) l = map Some r.
Proof.
  induction l as [|k l IH]; simpl; intros r H; [now injection H as <-|].
  unfold dict_item in *. destruct (dget (get_identifiers o) k); simpl in *; [|discriminate].
  destruct (rmapM _ l) as [r'|]; simpl in *; [|discriminate].
  injection H as <-. simpl. f_equal. now apply IH.
Qed.

Lemma unique_id_rendered o u : get_unique_id o = Ok u ->
  exists l, rendered_ids o = map Some l /\ u = join "__" l.
Proof.
  unfold get_unique_id, create_unique_id, rendered_ids.
  destruct (rmapM _ _) as [l|] eqn:E; simpl; [|discriminate]. intros H. injection H as <-.
  exists l. split; [|reflexivity]. now apply rmapM_ids.
Qed.

Lemma map_Some_inj {A} (l m : list A) : map Some l = map Some m -> l = m.
Proof.
  revert m. induction l as [|x l IH]; intros [|y m]; simpl; intros H; try discriminate; [reflexivity|].
  injection H as -> H. now rewrite (IH m).
Qed.

Lemma uid_injective o1 o2 u : o_cls o1 = o_cls o2 ->
  get_unique_id o1 = Ok u -> get_unique_id o2 = Ok u ->
  (forall s, In (Some s) (rendered_ids o1) \/ In (Some s) (rendered_ids o2) ->
     ~ substring_of "__" s /\ ~ ends_with_underscore s) ->
  rendered_ids o1 = rendered_ids o2.
Proof.
  intros HC H1 H2 HS.
  assert (HL : length (rendered_ids o1) = length (rendered_ids o2))
    by (unfold rendered_ids; rewrite !map_length; now rewrite HC).
  destruct (unique_id_rendered _ _ H1) as [l1 [R1 E1]].
  destruct (unique_id_rendered _ _ H2) as [l2 [R2 E2]].
  rewrite R1, R2 in *. f_equal. rewrite !map_length in HL. apply join_inj; auto.
  - apply Forall_forall. intros x Hx. apply HS. left. now apply in_map.
  - apply Forall_forall. intros x Hx. apply HS. right. now apply in_map.
  - congruence.
Qed.

(** One identifier only: no condition *)
Lemma uid_single o1 o2 u k : o_cls o1 = o_cls o2 -> c_identifiers (o_cls o1) = [k] ->
  get_unique_id o1 = Ok u -> get_unique_id o2 = Ok u -> rendered_ids o1 = rendered_ids o2.
Proof.
  intros HC HK H1 H2.
  destruct (unique_id_rendered _ _ H1) as [l1 [R1 E1]].
  destruct (unique_id_rendered _ _ H2) as [l2 [R2 E2]].
  assert (L1 : length l1 = 1) by (rewrite <- (map_length Some l1), <- R1; unfold rendered_ids; rewrite map_length, HK; reflexivity).
  assert (L2 : length l2 = 1) by (rewrite <- (map_length Some l2), <- R2; unfold rendered_ids; rewrite map_length, <- HC, HK; reflexivity).
  destruct l1 as [|x [|]], l2 as [|y [|]]; try discriminate. simpl in *. subst. rewrite R1, R2. reflexivity.
Qed.

(** ** Class declarations *)
Lemma overlap_false l m : overlap l m = false <-> disjoint l m.
Proof.
  unfold overlap, disjoint. split.
  - intros H x Hx Hm. assert (existsb (fun x => smem x m) l = true); [|congruence].
    apply existsb_exists. exists x. split; [exact Hx|]. now apply smem_In.
  - intros H. destruct (existsb _ l) eqn:E; [|reflexivity].
    apply existsb_exists in E as [x [Hx Hm]]. apply smem_In in Hm. exfalso. eapply H; eauto.
Qed.

Lemma forallb_smem l m : forallb (fun a => smem a m) l = true <-> incl l m.
Proof.
  rewrite forallb_forall. unfold incl. split; intros H x Hx; apply smem_In; [exact (H x Hx)|].
  apply smem_In, smem_In. now apply H.
Qed.

Lemma check_model_ok c extra :
  check_model_class c extra = Ok tt <->
  (incl (c_identifiers c) (model_fields c ++ extra) /\
   incl (c_shortname c) (model_fields c) /\
   incl (c_attributes c) (model_fields c) /\
   (forall t f, In (t, f) (c_children c) -> In f (model_fields c))) /\
  disjoint (c_identifiers c) (c_attributes c) /\
  disjoint (c_identifiers c) (map snd (c_children c)) /\
  disjoint (c_attributes c) (map snd (c_children c)).
Proof.
  unfold check_model_class.
  assert (HI : forallb (fun a => smem a (model_fields c) || smem a extra) (c_identifiers c) = true
               <-> incl (c_identifiers c) (model_fields c ++ extra)).
  { rewrite forallb_forall. unfold incl. split; intros H x Hx.
    - specialize (H x Hx). apply orb_prop in H. apply in_app_iff. rewrite <- !smem_In. tauto.
    - apply orb_true_iff. rewrite !smem_In. apply in_app_iff. now apply H. }
  assert (HC : forallb (fun a => smem a (model_fields c)) (dvals (c_children c)) = true
               <-> (forall t f, In (t, f) (c_children c) -> In f (model_fields c))).
  { rewrite forallb_smem. unfold incl. split.
    - intros H t f Hf. apply H. eapply In_dvals_of; eauto.
    - intros H f Hf. apply In_dvals in Hf as [t Hf]. eauto. }
  change (map snd (c_children c)) with (dvals (c_children c)).
  rewrite <- HI, <- HC, <- !forallb_smem, <- !overlap_false.
  destruct (forallb (fun a => smem a (model_fields c) || smem a extra) (c_identifiers c)); simpl; [|intuition discriminate].
  destruct (forallb (fun a => smem a (model_fields c)) (c_shortname c)); simpl; [|intuition discriminate].
  destruct (forallb (fun a => smem a (model_fields c)) (c_attributes c)); simpl; [|intuition discriminate].
  destruct (forallb (fun a => smem a (model_fields c)) (dvals (c_children c))); simpl; [|intuition discriminate].
  destruct (overlap (c_identifiers c) (c_attributes c)); [intuition discriminate|].
  destruct (overlap (c_identifiers c) (dvals (c_children c))); [intuition discriminate|].
  destruct (overlap (c_attributes c) (dvals (c_children c))); [intuition discriminate|].
  intuition.
Qed.

Lemma check_model_err c extra : check_model_class c extra = Ok tt \/ check_model_class c extra = Err ExnAttributeError.
Proof. unfold check_model_class. repeat match goal with |- context [if ?b then _ else _] => destruct b; auto end. Qed.

Lemma check_adapter_ok top attrs : NoDup (dkeys attrs) ->
  check_adapter_class top attrs = Ok tt <->
  (forall n c, In (n, Some c) attrs -> c_modelname c = n) /\
  (forall n, In n top -> exists c, In (n, Some c) attrs).
Proof.
  intros ND. unfold check_adapter_class.
  set (b1 := forallb _ attrs). set (b2 := forallb _ top).
  assert (H1 : b1 = true <-> (forall n c, In (n, Some c) attrs -> c_modelname c = n)).
  { unfold b1. rewrite forallb_forall. split.
    - intros H n c Hc. specialize (H _ Hc). simpl in H. now apply String.eqb_eq in H.
    - intros H [n [c|]] Hc; simpl; [|reflexivity]. apply String.eqb_eq. now apply H. }
  assert (H2 : b2 = true <-> (forall n, In n top -> exists c, In (n, Some c) attrs)).
  { unfold b2. rewrite forallb_forall. split.
    - intros H n Hn. specialize (H n Hn). destruct (dget attrs n) as [[c|]|] eqn:E; try discriminate.
      exists c. now apply dget_Some_In.
    - intros H n Hn. destruct (H n Hn) as [c Hc]. rewrite (In_dget _ _ _ ND Hc). reflexivity. }
  rewrite <- H1, <- H2. destruct b1, b2; simpl; intuition discriminate.
Qed.

Lemma check_adapter_err top attrs : check_adapter_class top attrs = Ok tt \/ check_adapter_class top attrs = Err ExnAttributeError.
Proof. unfold check_adapter_class. repeat match goal with |- context [if ?b then _ else _] => destruct b; auto end. Qed.

(** ** Children *)
Lemma add_child_ok p c f l u :
  dget (c_children (o_cls p)) (get_type c) = Some f -> dget (o_kids p) f = Some l ->
  get_unique_id c = Ok u -> ~ In u l ->
  add_child p c = Ok (set_o_kids p (dset (o_kids p) f (l ++ [u]))).
Proof.
  intros H1 H2 H3 H4. unfold add_child, getattr_kids. rewrite H1, H2, H3. simpl.
  apply smem_false in H4. now rewrite H4.
Qed.
Lemma add_child_wrong_type p c :
  dget (c_children (o_cls p)) (get_type c) = None -> add_child p c = Err ObjectStoreWrongType.
Proof. intros H. unfold add_child. now rewrite H. Qed.
Lemma add_child_dup p c f l u :
  dget (c_children (o_cls p)) (get_type c) = Some f -> dget (o_kids p) f = Some l ->
  get_unique_id c = Ok u -> In u l -> add_child p c = Err ObjectAlreadyExists.
Proof.
  intros H1 H2 H3 H4. unfold add_child, getattr_kids. rewrite H1, H2, H3. simpl.
  apply smem_In in H4. now rewrite H4.
Qed.
Lemma remove_first_split u l : In u l -> exists a b, l = a ++ u :: b /\ ~ In u a /\ remove_first u l = a ++ b.
Proof.
  induction l as [|y l IH]; [intros []|]. intros H. simpl. destruct (String.eqb_spec u y) as [->|N].
  - exists [], l. repeat split; auto.
  - destruct H as [H|H]; [congruence|]. destruct (IH H) as [a [b [-> [Ha E]]]].
    exists (y :: a), b. rewrite E. repeat split; auto. simpl. intuition congruence.
Qed.
Lemma remove_child_ok p c f l u :
  dget (c_children (o_cls p)) (get_type c) = Some f -> dget (o_kids p) f = Some l ->
  get_unique_id c = Ok u -> In u l ->
  exists a b, l = a ++ u :: b /\ ~ In u a /\
  remove_child p c = Ok (set_o_kids p (dset (o_kids p) f (a ++ b))).
Proof.
  intros H1 H2 H3 H4. destruct (remove_first_split _ _ H4) as [a [b [E [Ha R]]]].
  exists a, b. repeat split; auto. unfold remove_child, getattr_kids. rewrite H1, H2, H3. simpl.
  pose proof (proj2 (smem_In u l) H4) as ->. now rewrite R.
Qed.
Lemma remove_child_wrong_type p c :
  dget (c_children (o_cls p)) (get_type c) = None -> remove_child p c = Err ObjectStoreWrongType.
Proof. intros H. unfold remove_child. now rewrite H. Qed.
Lemma remove_child_absent p c f l u :
  dget (c_children (o_cls p)) (get_type c) = Some f -> dget (o_kids p) f = Some l ->
  get_unique_id c = Ok u -> ~ In u l -> remove_child p c = Err ObjectNotFound.
Proof.
  intros H1 H2 H3 H4. unfold remove_child, getattr_kids. rewrite H1, H2, H3. simpl.
  apply smem_false in H4. now rewrite H4.
Qed.

Lemma add_child_inv p c p' : add_child p c = Ok p' ->
  exists f l u, dget (c_children (o_cls p)) (get_type c) = Some f /\ dget (o_kids p) f = Some l /\
    get_unique_id c = Ok u /\ ~ In u l /\ p' = set_o_kids p (dset (o_kids p) f (l ++ [u])).
Proof.
  unfold add_child, getattr_kids. destruct (dget (c_children _) _) as [f|]; [|discriminate].
  destruct (dget (o_kids p) f) as [l|] eqn:E; simpl; [|discriminate].
  destruct (get_unique_id c) as [u|]; simpl; [|discriminate].
  destruct (smem u l) eqn:S; [discriminate|]. intros H. injection H as <-. apply smem_false in S.
  exists f, l, u. rewrite E. auto.
Qed.
Lemma remove_child_inv p c p' : remove_child p c = Ok p' ->
  exists f l u, dget (c_children (o_cls p)) (get_type c) = Some f /\ dget (o_kids p) f = Some l /\
    get_unique_id c = Ok u /\ In u l /\ p' = set_o_kids p (dset (o_kids p) f (remove_first u l)).
Proof.
  unfold remove_child, getattr_kids. destruct (dget (c_children _) _) as [f|]; [|discriminate].
  destruct (dget (o_kids p) f) as [l|] eqn:E; simpl; [|discriminate].
  destruct (get_unique_id c) as [u|]; simpl; [|discriminate].
  destruct (smem u l) eqn:S; [|discriminate]. intros H. injection H as <-. apply smem_In in S.
  exists f, l, u. rewrite E. auto.
Qed.

Lemma add_remove_child p c p' : add_child p c = Ok p' -> remove_child p' c = Ok p.
Proof.
  intros H. apply add_child_inv in H as (f & l & u & H1 & H2 & H3 & H4 & ->).
  destruct (remove_child_ok (set_o_kids p (dset (o_kids p) f (l ++ [u]))) c f (l ++ [u]) u) as (a & b & E & Ha & R).
  - exact H1.
  - simpl. apply dget_dset_eq.
  - exact H3.
  - apply in_app_iff. simpl. auto.
  - rewrite R. f_equal. unfold set_o_kids. simpl. rewrite dset_dset.
    assert (a ++ b = l) as ->.
    { clear - E Ha H4. revert a E Ha. induction l as [|y l IH]; intros a E Ha; simpl in E.
      - destruct a as [|x a']; simpl in E.
        + injection E as E. now subst.
        + injection E as -> E. destruct a'; discriminate.
      - destruct a as [|x a]; simpl in E; injection E as -> E.
        + exfalso. apply H4. now left.
        + simpl. f_equal. apply IH; auto; simpl in *; tauto. }
    rewrite dset_same by exact H2. now destruct p.
Qed.

Lemma NoDup_snoc {A} (l : list A) x : NoDup l -> ~ In x l -> NoDup (l ++ [x]).
Proof.
  intros H N. eapply Permutation_NoDup; [apply Permutation_cons_append|]. now constructor.
Qed.

Lemma child_step_nodup p c :
  (forall f l, dget (o_kids p) f = Some l -> NoDup l) ->
  (forall f l, dget (o_kids (child_step p c)) f = Some l -> NoDup l).
Proof.
  intros H f l. unfold child_step. destruct c as [c|c].
  - destruct (add_child p c) as [p'|] eqn:E; [|apply H].
    apply add_child_inv in E as (f' & l' & u & H1 & H2 & H3 & H4 & ->). simpl. rewrite dget_dset.
    destruct (String.eqb f f'); [|apply H]. intros E. injection E as <-. apply NoDup_snoc; eauto.
  - destruct (remove_child p c) as [p'|] eqn:E; [|apply H].
    apply remove_child_inv in E as (f' & l' & u & H1 & H2 & H3 & H4 & ->). simpl. rewrite dget_dset.
    destruct (String.eqb f f'); [|apply H]. intros E. injection E as <-.
    destruct (remove_first_split _ _ H4) as (a & b & -> & _ & ->). apply NoDup_remove_1 with u. eauto.
Qed.

Lemma child_run_nodup cs : forall p,
  (forall f l, dget (o_kids p) f = Some l -> NoDup l) ->
  (forall f l, dget (o_kids (child_run p cs)) f = Some l -> NoDup l).
Proof.
  induction cs as [|c cs IH]; intros p H; [exact H|].
  unfold child_run. simpl. apply IH. now apply child_step_nodup.
Qed.

Lemma dkeys_dset_known {A} (d : dict A) k v v' : dget d k = Some v -> dkeys (dset d k v') = dkeys d.
Proof. intros H. rewrite dkeys_dset. unfold dmem. now rewrite H. Qed.

Lemma C20_add (p c : obj) :
  (forall f l u, dget (c_children (o_cls p)) (get_type c) = Some f -> dget (o_kids p) f = Some l ->
     get_unique_id c = Ok u -> ~ In u l ->
     exists p', add_child p c = Ok p' /\ dget (o_kids p') f = Some (l ++ [u]) /\
       (forall g, g <> f -> dget (o_kids p') g = dget (o_kids p) g) /\ dkeys (o_kids p') = dkeys (o_kids p) /\
       o_cls p' = o_cls p /\ o_vals p' = o_vals p /\ o_flags p' = o_flags p /\
       o_adapter p' = o_adapter p /\ o_status p' = o_status p /\ o_msg p' = o_msg p) /\
  (dget (c_children (o_cls p)) (get_type c) = None -> add_child p c = Err ObjectStoreWrongType) /\
  (forall f l u, dget (c_children (o_cls p)) (get_type c) = Some f -> dget (o_kids p) f = Some l ->
     get_unique_id c = Ok u -> In u l -> add_child p c = Err ObjectAlreadyExists).
Proof.
  split; [|split].
  - intros f l u H1 H2 H3 H4. eexists. split; [eapply add_child_ok; eauto|]. simpl.
    repeat split; try reflexivity.
    + apply dget_dset_eq.
    + intros g N. apply dget_dset_neq. congruence.
    + eapply dkeys_dset_known; eauto.
  - apply add_child_wrong_type.
  - intros. eapply add_child_dup; eauto.
Qed.

Lemma C20_remove (p c : obj) :
  (forall f l u, dget (c_children (o_cls p)) (get_type c) = Some f -> dget (o_kids p) f = Some l ->
     get_unique_id c = Ok u -> In u l ->
     exists p' a b, remove_child p c = Ok p' /\ l = a ++ u :: b /\ ~ In u a /\ dget (o_kids p') f = Some (a ++ b) /\
       (forall g, g <> f -> dget (o_kids p') g = dget (o_kids p) g) /\ dkeys (o_kids p') = dkeys (o_kids p) /\
       o_cls p' = o_cls p /\ o_vals p' = o_vals p /\ o_flags p' = o_flags p /\
       o_adapter p' = o_adapter p /\ o_status p' = o_status p /\ o_msg p' = o_msg p) /\
  (dget (c_children (o_cls p)) (get_type c) = None -> remove_child p c = Err ObjectStoreWrongType) /\
  (forall f l u, dget (c_children (o_cls p)) (get_type c) = Some f -> dget (o_kids p) f = Some l ->
     get_unique_id c = Ok u -> ~ In u l -> remove_child p c = Err ObjectNotFound) /\
  (forall p', add_child p c = Ok p' -> remove_child p' c = Ok p).
Proof.
  split; [|split; [|split]].
  - intros f l u H1 H2 H3 H4. destruct (remove_child_ok _ _ _ _ _ H1 H2 H3 H4) as (a & b & E & Ha & R).
    eexists; exists a, b. split; [exact R|]. simpl. repeat split; auto.
    + apply dget_dset_eq.
    + intros g N. apply dget_dset_neq. congruence.
    + eapply dkeys_dset_known; eauto.
  - apply remove_child_wrong_type.
  - intros. eapply remove_child_absent; eauto.
  - apply add_remove_child.
Qed.

(** A decidable sufficient test for [clean], for the examples *)
Lemma cut_none_inv s : cut s = (s, None) -> ~ substring_of "__" s.
Proof.
  intros E [a [b ->]]. revert E. induction a as [|c a IH]; intros E; [discriminate|].
  change (String c a ++ "__" ++ b)%string with (String c (a ++ "__" ++ b)) in E.
  rewrite cut_cons in E. destruct (a ++ "__" ++ b)%string as [|c' s''] eqn:X; [destruct a; discriminate|].
  destruct (_ && _); [discriminate|]. apply IH.
  destruct (cut (String c' s'')) as [p q]. simpl in E. congruence.
Qed.
Fixpoint last_is_underscore (s : string) : bool :=
  match s with
  | EmptyString => false
  | String c EmptyString => Ascii.eqb c "_"
  | String _ s' => last_is_underscore s'
  end.
Lemma clean_dec s : cut s = (s, None) /\ last_is_underscore s = false -> clean s.
Proof.
  intros [H1 H2]. split; [now apply cut_none_inv|].
  intros [a ->]. revert H2. clear. induction a as [|c a IH]; [discriminate|].
  simpl append. destruct a; [discriminate|]. intros H. apply IH. exact H.
Qed.
