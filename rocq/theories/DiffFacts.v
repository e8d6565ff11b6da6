(** * DiffFacts: lemmas about diff trees. *)
From Verif Require Export BaseFacts Spec.

Lemma elem_ind' (P : elem -> Prop) :
  (forall e, (forall t g n x, In (t, g) (e_kids e) -> In (n, x) g -> P x) -> P e) ->
  forall e, P e.
Proof.
  intros H. fix IH 1. intros [t n k sn dn s d kids]. apply H. simpl. clear H.
  intros t' g' n' x Hg Hx. revert Hg Hx.
  induction kids as [|[t0 g0] kids IHk]; simpl; [tauto|].
  intros [E|Hin]; [|now apply IHk].
  injection E as E1 E2. intros Hx. rewrite <- E2 in Hx. clear E1 E2 IHk.
  induction g0 as [|[n0 x0] g0 IHg]; simpl in Hx; [tauto|].
  destruct Hx as [E|Hin]; [|now apply IHg].
  injection E as E1 E2. rewrite <- E2. apply IH.
Qed.

(** ** C01, C02: one element *)
Lemma attr_differs_spec s d k :
  In k (attrs_keys (Some s) (Some d)) ->
  (attr_differs s d k = true <-> shared_unequal s d k).
Proof.
  simpl. rewrite In_intersection. intros [Hd Hs].
  unfold attr_differs, shared_unequal.
  destruct (dget s k) as [x|] eqn:Es; [|now apply dget_None in Es].
  destruct (dget d k) as [y|] eqn:Ed; [|now apply dget_None in Ed].
  rewrite negb_true_iff. split.
  - intros H. exists x, y. auto.
  - intros (x' & y' & H1 & H2 & H3). congruence.
Qed.

Lemma shared_unequal_keys s d k : shared_unequal s d k -> In k (attrs_keys (Some s) (Some d)).
Proof.
  intros (x & y & H1 & H2 & _). simpl. rewrite In_intersection.
  split; eapply dget_Some_key; eauto.
Qed.

Lemma existsb_differs s d :
  existsb (attr_differs s d) (attrs_keys (Some s) (Some d)) = true <-> exists k, shared_unequal s d k.
Proof.
  rewrite existsb_exists. split.
  - intros [k [Hk H]]. exists k. now apply attr_differs_spec.
  - intros [k H]. exists k. split; [now apply shared_unequal_keys|].
    apply attr_differs_spec; [now apply shared_unequal_keys|exact H].
Qed.

Lemma action_create e : e_action e = Some ACreate <-> e_src e <> None /\ e_dst e = None.
Proof.
  unfold e_action, attrs_action. destruct (e_src e), (e_dst e); simpl; try (split; [discriminate|intuition congruence]).
  - destruct (existsb _ _); split; try discriminate; intuition congruence.
  - split; intuition congruence.
Qed.
Lemma action_delete e : e_action e = Some ADelete <-> e_src e = None /\ e_dst e <> None.
Proof.
  unfold e_action, attrs_action. destruct (e_src e), (e_dst e); simpl; try (split; [discriminate|intuition congruence]).
  - destruct (existsb _ _); split; try discriminate; intuition congruence.
  - split; intuition congruence.
Qed.
Lemma action_update e :
  e_action e = Some AUpdate <->
  exists s d, e_src e = Some s /\ e_dst e = Some d /\ exists k, shared_unequal s d k.
Proof.
  unfold e_action, attrs_action. destruct (e_src e) as [s|], (e_dst e) as [d|].
  - destruct (existsb _ _) eqn:E.
    + split; [|reflexivity]. intros _. exists s, d. rewrite <- existsb_differs. auto.
    + split; [discriminate|]. intros (s' & d' & H1 & H2 & H). injection H1 as <-. injection H2 as <-.
      apply existsb_differs in H. congruence.
  - split; [discriminate|]. intros (? & ? & ? & ? & ?); discriminate.
  - split; [discriminate|]. intros (? & ? & ? & ? & ?); discriminate.
  - split; [discriminate|]. intros (? & ? & ? & ? & ?); discriminate.
Qed.

(** [pick] *)
Lemma dget_pick_gen (d : dict val) ks (acc : dict val) k :
  dget (fold_left (fun acc k => match dget d k with Some v => dset acc k v | None => acc end) ks acc) k
  = if smem k ks then match dget d k with Some v => Some v | None => dget acc k end else dget acc k.
Proof.
  revert acc. induction ks as [|k0 ks IH]; intros acc; simpl; [reflexivity|].
  rewrite IH. destruct (String.eqb_spec k k0); subst; simpl.
  - destruct (dget d k0) eqn:E.
    + rewrite dget_dset_eq. now destruct (smem k0 ks).
    + now destruct (smem k0 ks).
  - destruct (dget d k0) eqn:E; [rewrite dget_dset_neq by congruence|]; reflexivity.
Qed.
Lemma dget_pick d ks k : dget (pick d ks) k = if smem k ks then dget d k else None.
Proof. unfold pick. rewrite dget_pick_gen. simpl. destruct (smem k ks); [|reflexivity]. now destruct (dget d k). Qed.

Lemma NoDup_pick d ks : NoDup (dkeys (pick d ks)).
Proof.
  unfold pick. assert (H : forall acc : dict val, NoDup (dkeys acc) ->
    NoDup (dkeys (fold_left (fun acc k => match dget d k with Some v => dset acc k v | None => acc end) ks acc))).
  { induction ks as [|k ks IH]; intros acc H; simpl; [exact H|].
    apply IH. destruct (dget d k); [now apply NoDup_dset|exact H]. }
  apply H. constructor.
Qed.

Lemma pick_all_gen (d acc : dict val) :
  NoDup (dkeys acc ++ dkeys d) ->
  forall d0, (forall k v, dget d k = Some v -> dget d0 k = Some v) ->
  fold_left (fun acc k => match dget d0 k with Some v => dset acc k v | None => acc end) (dkeys d) acc = acc ++ d.
Proof.
  revert acc. induction d as [|[k v] d IH]; intros acc ND d0 H; simpl; [now rewrite app_nil_r|].
  rewrite (H k v) by (simpl; now rewrite String.eqb_refl).
  simpl in ND. rewrite dset_absent.
  - rewrite IH.
    + now rewrite <- app_assoc.
    + unfold dkeys in *. rewrite map_app, <- app_assoc. exact ND.
    + intros k' v' H'. apply H. simpl. destruct (String.eqb_spec k' k); [|exact H'].
      subst. exfalso. apply NoDup_remove_2 in ND. apply ND. rewrite in_app_iff. right. eapply dget_Some_key; eauto.
  - apply dget_None. apply NoDup_remove_2 in ND. rewrite in_app_iff in ND. tauto.
Qed.
Lemma pick_all d : NoDup (dkeys d) -> pick d (dkeys d) = d.
Proof. intros H. unfold pick. rewrite pick_all_gen; auto. Qed.

Lemma attrs_diffs_both s d p m :
  get_attrs_diffs (Some s) (Some d) = mkAD (Some p) (Some m) ->
  forall k,
    (shared_unequal s d k -> dget p k = dget s k /\ dget m k = dget d k) /\
    (~ shared_unequal s d k -> dget p k = None /\ dget m k = None).
Proof.
  unfold get_attrs_diffs. intros H k. injection H as Hp Hm.
  assert (K : smem k (filter (attr_differs s d) (attrs_keys (Some s) (Some d))) = true <-> shared_unequal s d k).
  { rewrite smem_In, filter_In. split.
    - intros [H1 H2]. now apply attr_differs_spec.
    - intros H1. pose proof (shared_unequal_keys _ _ _ H1). split; [assumption|]. now apply attr_differs_spec. }
  simpl attrs_keys in K. rewrite <- Hp, <- Hm. rewrite !dget_pick. split; intros H1.
  - apply K in H1. simpl in *. rewrite H1. auto.
  - destruct (smem _ _) eqn:E; [|auto]. exfalso. apply H1. now apply K.
Qed.

(** ** Occurrence, flattening *)
Lemma In_elem_all_iff x e : In x (elem_all e) <-> x = e \/ occurs x (e_kids e).
Proof.
  revert x. induction e as [e IH] using elem_ind'. intros x.
  assert (E : elem_all e = e :: flat_map (fun g => flat_map (fun kv => elem_all (snd kv)) (snd g)) (e_kids e))
    by now destruct e.
  rewrite E. simpl. rewrite in_flat_map. split.
  - intros [->|[[t g] [Hg Hx]]]; [auto|]. right. simpl in Hx. apply in_flat_map in Hx as [[n y] [Hy Hx]].
    simpl in Hx. apply (IH t g n y Hg Hy) in Hx as [->|Hx].
    + eapply occ_here; eauto.
    + eapply occ_below; eauto.
  - intros [->|H]; [auto|]. right. inversion H as [gs t g n Hg Hn | gs t g n p Hg Hn Ho]; subst.
    + exists (t, g). split; [exact Hg|]. simpl. apply in_flat_map. exists (n, x). split; [exact Hn|].
      apply (IH t g n x Hg Hn). auto.
    + exists (t, g). split; [exact Hg|]. simpl. apply in_flat_map. exists (n, p). split; [exact Hn|].
      apply (IH t g n p Hg Hn). auto.
Qed.

Lemma In_tree_all x gs : In x (tree_all gs) <-> occurs x gs.
Proof.
  unfold tree_all. rewrite in_flat_map. split.
  - intros [[t g] [Hg Hx]]. simpl in Hx. apply in_flat_map in Hx as [[n y] [Hy Hx]].
    apply In_elem_all_iff in Hx as [->|Hx]; [eapply occ_here|eapply occ_below]; eauto.
  - intros H. inversion H as [gs' t g n Hg Hn | gs' t g n p Hg Hn Ho]; subst;
      exists (t, g); (split; [exact Hg|]); simpl; apply in_flat_map; eexists; (split; [eassumption|]);
      apply In_elem_all_iff; auto.
Qed.

(** ** has_diffs *)
Lemma own_diffs_action e : own_diffs e = true <-> e_action e <> None.
Proof.
  unfold own_diffs, e_action, attrs_action. destruct (e_src e), (e_dst e).
  - destruct (existsb _ _); split; congruence.
  - split; congruence. - split; congruence. - split; congruence.
Qed.

Lemma elem_has_diffs_eq e : elem_has_diffs e = own_diffs e || groups_have_diffs (e_kids e).
Proof. destruct e; reflexivity. Qed.

Lemma elem_has_diffs_spec e :
  elem_has_diffs e = true <-> exists x, In x (elem_all e) /\ e_action x <> None.
Proof.
  induction e as [e IH] using elem_ind'. rewrite elem_has_diffs_eq, orb_true_iff, own_diffs_action. split.
  - intros [H|H].
    + exists e. split; [apply In_elem_all_iff; auto|exact H].
    + unfold groups_have_diffs in H. apply existsb_exists in H as [[t g] [Hg H]]. simpl in H.
      apply existsb_exists in H as [[n y] [Hy H]]. simpl in H.
      apply (IH t g n y Hg Hy) in H as [x [Hx Ha]]. exists x. split; [|exact Ha].
      apply In_elem_all_iff. right. apply In_elem_all_iff in Hx as [->|Hx]; [eapply occ_here|eapply occ_below]; eauto.
  - intros [x [Hx Ha]]. apply In_elem_all_iff in Hx as [->|Hx]; [auto|]. right.
    unfold groups_have_diffs. apply existsb_exists.
    inversion Hx as [gs' t g n Hg Hn | gs' t g n p Hg Hn Ho]; subst; exists (t, g); (split; [exact Hg|]);
      simpl; apply existsb_exists; eexists; (split; [eassumption|]); simpl; apply (IH t g n _ Hg Hn);
      exists x; (split; [|exact Ha]); apply In_elem_all_iff; auto.
Qed.

Lemma groups_have_diffs_spec gs :
  groups_have_diffs gs = true <-> exists x, occurs x gs /\ e_action x <> None.
Proof.
  unfold groups_have_diffs. rewrite existsb_exists. split.
  - intros [[t g] [Hg H]]. simpl in H. apply existsb_exists in H as [[n y] [Hy H]]. simpl in H.
    apply elem_has_diffs_spec in H as [x [Hx Ha]]. exists x. split; [|exact Ha].
    apply In_elem_all_iff in Hx as [->|Hx]; [eapply occ_here|eapply occ_below]; eauto.
  - intros [x [Hx Ha]].
    inversion Hx as [gs' t g n Hg Hn | gs' t g n p Hg Hn Ho]; subst; exists (t, g); (split; [exact Hg|]);
      simpl; apply existsb_exists; eexists; (split; [eassumption|]); simpl; apply elem_has_diffs_spec;
      exists x; (split; [|exact Ha]); apply In_elem_all_iff; auto.
Qed.

(** ** Ordering *)
Lemma In_select {A} (l : list A) idx x : In x (select l idx) <-> exists i, In i idx /\ nth_error l i = Some x.
Proof.
  unfold select. rewrite in_flat_map. split.
  - intros [i [Hi H]]. exists i. split; [exact Hi|]. destruct (nth_error l i); simpl in H; [|tauto].
    destruct H as [->|[]]; reflexivity.
  - intros [i [Hi H]]. exists i. split; [exact Hi|]. rewrite H. simpl. auto.
Qed.

Lemma select_map {A B} (f : A -> B) l idx : select (map f l) idx = map f (select l idx).
Proof.
  unfold select. induction idx as [|i idx IH]; simpl; [reflexivity|].
  rewrite map_app, IH. f_equal. rewrite nth_error_map. now destruct (nth_error l i).
Qed.

Lemma select_seq_shift {A} (l : list A) : forall pre, select (pre ++ l) (seq (length pre) (length l)) = l.
Proof.
  induction l as [|x l IH]; intros pre; simpl; [reflexivity|].
  rewrite nth_error_app2 by lia. rewrite Nat.sub_diag. simpl. f_equal.
  specialize (IH (pre ++ [x])). rewrite <- app_assoc in IH. simpl in IH.
  rewrite app_length in IH. simpl in IH. rewrite Nat.add_1_r in IH. exact IH.
Qed.
Lemma select_seq {A} (l : list A) : select l (seq 0 (length l)) = l.
Proof. apply (select_seq_shift l []). Qed.

Lemma select_perm {A} (l : list A) idx : Permutation idx (seq 0 (length l)) -> Permutation (select l idx) l.
Proof.
  intros H. rewrite <- (select_seq l) at 2. unfold select. now apply Permutation_flat_map.
Qed.

Lemma ordered_map {A} ord (f : elem -> A) gs : ordered ord f gs = map f (ordered ord (fun e => e) gs).
Proof.
  unfold ordered. induction gs as [|[t g] gs IH]; simpl; [reflexivity|].
  rewrite map_app, <- IH. f_equal. rewrite <- select_map. f_equal. rewrite map_map. reflexivity.
Qed.

(** The children of a dictionary, in stored order *)
Definition children (gs : dict (dict elem)) : list elem := flat_map (fun g => dvals (snd g)) gs.

Lemma In_children x gs : In x (children gs) <-> exists t g n, In (t, g) gs /\ In (n, x) g.
Proof.
  unfold children. rewrite in_flat_map. split.
  - intros [[t g] [Hg Hx]]. simpl in Hx. apply In_dvals in Hx as [n Hn]. eauto 6.
  - intros (t & g & n & Hg & Hn). exists (t, g). split; [exact Hg|]. simpl. eapply In_dvals_of; eauto.
Qed.

Lemma ordered_In ord gs x : yields_all ord ->
  (In x (ordered ord (fun e => e) gs) <-> In x (children gs)).
Proof.
  intros Hord. unfold ordered, children. rewrite !in_flat_map. split; intros [[t g] [Hg H]]; exists (t, g); (split; [exact Hg|]); simpl in *.
  - apply In_select in H as [i [_ H]]. apply nth_error_In in H. exact H.
  - apply In_select. apply In_nth_error in H as [i Hi]. exists i. split.
    + apply Hord. apply nth_error_Some. congruence.
    + exact Hi.
Qed.

Lemma ordered_sub ord gs x : In x (ordered ord (fun e => e) gs) -> In x (children gs).
Proof.
  unfold ordered, children. rewrite !in_flat_map. intros [[t g] [Hg H]]; exists (t, g); (split; [exact Hg|]); simpl in *.
  apply In_select in H as [i [_ H]]. apply nth_error_In in H. exact H.
Qed.

Lemma ordered_perm ord gs : yields_once ord -> Permutation (ordered ord (fun e => e) gs) (children gs).
Proof.
  intros Hord. unfold ordered, children. induction gs as [|[t g] gs IH]; simpl; [reflexivity|].
  apply Permutation_app; [|exact IH]. change (map (fun kv : string * elem => snd kv) g) with (dvals g).
  apply select_perm. apply Hord.
Qed.

Lemma yields_once_all ord : yields_once ord -> yields_all ord.
Proof.
  intros H t l i Hi. eapply Permutation_in; [symmetry; apply H|]. apply in_seq. lia.
Qed.

Lemma order_default_once : yields_once order_default.
Proof. intros t l. reflexivity. Qed.

(** ** Counting *)
Lemma counts_fold_gen (l : list counts) a :
  let r := fold_left counts_add l a in
  n_create r = n_create a + list_sum (map n_create l) /\
  n_update r = n_update a + list_sum (map n_update l) /\
  n_delete r = n_delete a + list_sum (map n_delete l) /\
  n_nochange r = n_nochange a + list_sum (map n_nochange l).
Proof.
  revert a. induction l as [|x l IH]; intros a; simpl; [lia|].
  specialize (IH (counts_add a x)). simpl in IH. unfold list_sum in *. lia.
Qed.

Lemma list_sum_perm l m : Permutation l m -> list_sum l = list_sum m.
Proof. induction 1; simpl in *; lia. Qed.

Definition is_action (a : option action) (e : elem) : bool :=
  match a, e_action e with
  | None, None => true
  | Some x, Some y => action_eqb x y
  | _, _ => false
  end.

Definition sel_count (a : option action) : counts -> nat :=
  match a with
  | Some ACreate => n_create | Some AUpdate => n_update | Some ADelete => n_delete | None => n_nochange
  end.

Lemma how_many_app {A} (p : A -> bool) l m : how_many p (l ++ m) = how_many p l + how_many p m.
Proof. unfold how_many. now rewrite filter_app, app_length. Qed.

Lemma how_many_flat {A B} (p : B -> bool) (f : A -> list B) l :
  how_many p (flat_map f l) = list_sum (map (fun x => how_many p (f x)) l).
Proof. induction l as [|x l IH]; simpl; [reflexivity|]. rewrite how_many_app, IH. reflexivity. Qed.

Lemma tree_all_children gs : tree_all gs = flat_map elem_all (children gs).
Proof.
  unfold tree_all, children. induction gs as [|[t g] gs IH]; simpl; [reflexivity|].
  rewrite flat_map_app, IH. f_equal. unfold dvals. induction g as [|[n x] g IHg]; simpl; [reflexivity|]. now rewrite IHg.
Qed.

Lemma elem_all_eq e : elem_all e = e :: tree_all (e_kids e).
Proof. destruct e; reflexivity. Qed.

Lemma elem_counts_eq ord e :
  elem_counts ord e = counts_add (counts_of_action (e_action e)) (groups_counts ord (e_kids e)).
Proof. destruct e; reflexivity. Qed.
Lemma elem_len_eq ord e : elem_len ord e = S (groups_len ord (e_kids e)).
Proof. destruct e; reflexivity. Qed.

Lemma sum_children_perm ord gs (f g : elem -> nat) :
  yields_once ord ->
  (forall x, In x (children gs) -> f x = g x) ->
  list_sum (ordered ord f gs) = list_sum (map g (children gs)).
Proof.
  intros Hord H. rewrite ordered_map.
  erewrite list_sum_perm; [|apply Permutation_map, ordered_perm, Hord].
  f_equal. apply map_ext_in. exact H.
Qed.

Lemma groups_counts_sel ord a gs (g : elem -> nat) :
  yields_once ord ->
  (forall x, In x (children gs) -> sel_count a (elem_counts ord x) = g x) ->
  sel_count a (groups_counts ord gs) = list_sum (map g (children gs)).
Proof.
  intros Hord H. unfold groups_counts.
  pose proof (counts_fold_gen (ordered ord (elem_counts ord) gs) counts0) as (H1 & H2 & H3 & H4).
  rewrite <- (sum_children_perm ord gs (fun x => sel_count a (elem_counts ord x)) g Hord H).
  rewrite (ordered_map ord (fun x => sel_count a (elem_counts ord x))).
  rewrite (ordered_map ord (elem_counts ord)) in *. rewrite map_map in *.
  destruct a as [[]|]; simpl in *; assumption.
Qed.

Lemma elem_counts_spec ord a : yields_once ord ->
  forall e, sel_count a (elem_counts ord e) = how_many (is_action a) (elem_all e).
Proof.
  intros Hord. induction e as [e IH] using elem_ind'.
  rewrite elem_counts_eq, elem_all_eq.
  replace (sel_count a (counts_add (counts_of_action (e_action e)) (groups_counts ord (e_kids e))))
    with (sel_count a (counts_of_action (e_action e)) + sel_count a (groups_counts ord (e_kids e)))
    by (destruct a as [[]|]; reflexivity).
  rewrite (groups_counts_sel ord a _ (fun x => how_many (is_action a) (elem_all x)) Hord).
  - rewrite tree_all_children. change (e :: flat_map elem_all (children (e_kids e))) with ([e] ++ flat_map elem_all (children (e_kids e))).
    rewrite how_many_app, how_many_flat. f_equal.
    unfold how_many, is_action. simpl. destruct a as [[]|], (e_action e) as [[]|]; reflexivity.
  - intros x Hx. apply In_children in Hx as (t & g & n & Hg & Hn). eauto.
Qed.

Lemma groups_counts_spec ord a gs : yields_once ord ->
  sel_count a (groups_counts ord gs) = how_many (is_action a) (tree_all gs).
Proof.
  intros Hord. rewrite (groups_counts_sel ord a gs (fun x => how_many (is_action a) (elem_all x)) Hord).
  - now rewrite tree_all_children, how_many_flat.
  - intros x _. now apply elem_counts_spec.
Qed.

Lemma length_flat {A B} (f : A -> list B) l : length (flat_map f l) = list_sum (map (fun x => length (f x)) l).
Proof. induction l as [|x l IH]; simpl; [reflexivity|]. rewrite app_length, IH. reflexivity. Qed.

Lemma elem_len_spec ord : yields_once ord -> forall e, elem_len ord e = length (elem_all e).
Proof.
  intros Hord. induction e as [e IH] using elem_ind'.
  rewrite elem_len_eq, elem_all_eq. simpl. f_equal. unfold groups_len.
  rewrite (sum_children_perm ord (e_kids e) _ (fun x => length (elem_all x)) Hord).
  - now rewrite tree_all_children, length_flat.
  - intros x Hx. apply In_children in Hx as (t & g & n & Hg & Hn). eauto.
Qed.

Lemma groups_len_spec ord gs : yields_once ord -> groups_len ord gs = length (tree_all gs).
Proof.
  intros Hord. unfold groups_len.
  rewrite (sum_children_perm ord gs _ (fun x => length (elem_all x)) Hord).
  - now rewrite tree_all_children, length_flat.
  - intros x _. now apply elem_len_spec.
Qed.

Lemma how_many_cons {A} (p : A -> bool) x l : how_many p (x :: l) = (if p x then 1 else 0) + how_many p l.
Proof. unfold how_many. simpl. destruct (p x); reflexivity. Qed.

Lemma how_many_partition (l : list elem) :
  how_many (is_action (Some ACreate)) l + how_many (is_action (Some AUpdate)) l +
  how_many (is_action (Some ADelete)) l + how_many (is_action None) l = length l.
Proof.
  induction l as [|x l IH]; [reflexivity|].
  rewrite !how_many_cons. simpl length. rewrite <- IH.
  unfold is_action at 1 3 5 7. destruct (e_action x) as [[]|]; simpl; lia.
Qed.

(** With a hook that only yields every child (perhaps repeatedly), counts are
    still positive exactly when the action occurs. *)
Lemma list_sum_cons x l : list_sum (x :: l) = x + list_sum l.
Proof. reflexivity. Qed.
Lemma list_sum_pos l : list_sum l > 0 <-> exists x, In x l /\ x > 0.
Proof.
  induction l as [|x l IH]; [split; [simpl; lia|intros (? & [] & _)]|].
  rewrite list_sum_cons. split.
  - intros H. destruct x as [|x]; [|exists (S x); split; [left; reflexivity|lia]].
    destruct IH as [IH _]. destruct IH as (y & Hy & Hp); [exact H|]. exists y. simpl. auto.
  - intros (y & [->|Hy] & Hp); [lia|]. assert (list_sum l > 0) by (apply IH; eauto). lia.
Qed.

Lemma groups_counts_pos_step ord a gs : yields_all ord ->
  (sel_count a (groups_counts ord gs) > 0 <->
   exists x, In x (children gs) /\ sel_count a (elem_counts ord x) > 0).
Proof.
  intros Hord. unfold groups_counts.
  pose proof (counts_fold_gen (ordered ord (elem_counts ord) gs) counts0) as (H1 & H2 & H3 & H4).
  assert (E : sel_count a (fold_left counts_add (ordered ord (elem_counts ord) gs) counts0)
              = list_sum (map (fun x => sel_count a (elem_counts ord x)) (ordered ord (fun e => e) gs))).
  { rewrite (ordered_map ord (elem_counts ord)) in *. rewrite map_map in *.
    destruct a as [[]|]; simpl in *; assumption. }
  rewrite E, list_sum_pos. split.
  - intros (y & Hy & Hp). apply in_map_iff in Hy as (x & <- & Hx). exists x. split; [|exact Hp].
    now apply (ordered_In ord gs x Hord).
  - intros (x & Hx & Hp). eexists. split; [|exact Hp]. apply in_map_iff. exists x. split; [reflexivity|].
    now apply (ordered_In ord gs x Hord).
Qed.

Lemma elem_counts_pos ord a : yields_all ord ->
  forall e, sel_count a (elem_counts ord e) > 0 <-> exists x, In x (elem_all e) /\ e_action x = a.
Proof.
  intros Hord. induction e as [e IH] using elem_ind'.
  rewrite elem_counts_eq.
  assert (E : sel_count a (counts_add (counts_of_action (e_action e)) (groups_counts ord (e_kids e)))
              = sel_count a (counts_of_action (e_action e)) + sel_count a (groups_counts ord (e_kids e)))
    by (destruct a as [[]|]; reflexivity).
  rewrite E. clear E. rewrite elem_all_eq, tree_all_children. split.
  - intros H. destruct (sel_count a (counts_of_action (e_action e))) eqn:Ea.
    + assert (Hg : sel_count a (groups_counts ord (e_kids e)) > 0) by lia.
      apply groups_counts_pos_step in Hg as (x & Hx & Hp); [|exact Hord].
      pose proof Hx as Hx'. apply In_children in Hx' as (t & g & n & Hg & Hn).
      apply (IH t g n x Hg Hn) in Hp as (y & Hy & Hya). exists y. split; [|exact Hya].
      right. apply in_flat_map. eauto.
    + exists e. split; [left; reflexivity|]. destruct a as [[]|], (e_action e) as [[]|]; simpl in Ea; try discriminate; reflexivity.
  - intros (x & [<-|Hx] & Ha).
    + rewrite Ha. destruct a as [[]|]; simpl; lia.
    + apply in_flat_map in Hx as (c & Hc & Hx).
      assert (Hg : sel_count a (groups_counts ord (e_kids e)) > 0); [|lia].
      apply groups_counts_pos_step; [exact Hord|]. exists c. split; [exact Hc|].
      apply In_children in Hc as (t & g & n & Hg & Hn). apply (IH t g n c Hg Hn). eauto.
Qed.

Lemma groups_counts_pos ord a gs : yields_all ord ->
  (sel_count a (groups_counts ord gs) > 0 <-> exists x, occurs x gs /\ e_action x = a).
Proof.
  intros Hord. rewrite groups_counts_pos_step by exact Hord. split.
  - intros (c & Hc & Hp). apply elem_counts_pos in Hp as (x & Hx & Ha); [|exact Hord]. exists x. split; [|exact Ha].
    apply In_tree_all. rewrite tree_all_children. apply in_flat_map. eauto.
  - intros (x & Hx & Ha). apply In_tree_all in Hx. rewrite tree_all_children in Hx. apply in_flat_map in Hx as (c & Hc & Hx).
    exists c. split; [exact Hc|]. apply elem_counts_pos; [exact Hord|]. eauto.
Qed.

(** ** dict() *)
Lemma dset_nonempty {A} (d : dict A) k v : dset d k v <> [].
Proof. destruct d as [|[k' v'] d]; simpl; [discriminate|]. destruct (String.eqb k k'); discriminate. Qed.

Lemma dict_of_children_nonempty l :
  dict_of_children l <> [] <-> exists t n d, In (t, n, true, d) l.
Proof.
  unfold dict_of_children.
  assert (G : forall res : dict (dict pyv),
    fold_left (fun (res : dict (dict pyv)) x =>
       match x with (t, n, h, d) => if h : bool then dset res t (dset (group_of res t) n d) else res end) l res <> []
    <-> res <> [] \/ exists t n d, In (t, n, true, d) l).
  { induction l as [|[[[t n] h] d] l IH]; intros res; simpl.
    - split; [auto|]. intros [H|(? & ? & ? & [])]; exact H.
    - rewrite IH. destruct h.
      + split; [|intros _; left; apply dset_nonempty]. intros _. right. exists t, n, d. auto.
      + split.
        * intros [H|(t' & n' & d' & H)]; [auto|]. right. exists t', n', d'. auto.
        * intros [H|(t' & n' & d' & [H|H])]; [auto|discriminate|]. right. eauto. }
  specialize (G []). split.
  - intros H. destruct (proj1 G) as [H'|H']; [|congruence|exact H'].
    intros E. apply H. now rewrite E.
  - intros H E. apply map_eq_nil in E. revert E. apply G. auto.
Qed.

Lemma groups_dict_nonempty ord gs : yields_all ord ->
  (groups_dict ord gs <> [] <-> groups_have_diffs gs = true).
Proof.
  intros Hord. unfold groups_dict. rewrite dict_of_children_nonempty, ordered_map. split.
  - intros (t & n & d & H). apply in_map_iff in H as (x & E & Hx).
    injection E as _ _ Hh _. apply ordered_sub in Hx. apply In_children in Hx as (t' & g & n' & Hg & Hn).
    unfold groups_have_diffs. apply existsb_exists. exists (t', g). split; [exact Hg|]. simpl.
    apply existsb_exists. exists (n', x). auto.
  - unfold groups_have_diffs. intros H. apply existsb_exists in H as [[t g] [Hg H]]. simpl in H.
    apply existsb_exists in H as [[n x] [Hn H]]. simpl in H.
    exists (e_type x), (e_name x), (elem_dict ord x). apply in_map_iff. exists x. rewrite H. split; [reflexivity|].
    apply (ordered_In ord gs x Hord). apply In_children. eauto 6.
Qed.

(** ** str() *)
Fixpoint has_char (c : Ascii.ascii) (s : string) : bool :=
  match s with
  | EmptyString => false
  | String c' s' => Ascii.eqb c c' || has_char c s'
  end.
Definition nl := Ascii.ascii_of_nat 10.

Lemma has_char_app c a b : has_char c (a ++ b)%string = has_char c a || has_char c b.
Proof. induction a as [|x a IH]; simpl; [reflexivity|]. now rewrite IH, orb_assoc. Qed.

Lemma join2_newline a b l : has_char nl (join newline (a :: b :: l)) = true.
Proof.
  change (join newline (a :: b :: l)) with (a ++ (newline ++ join newline (b :: l)))%string.
  rewrite has_char_app. apply orb_true_iff. right. rewrite has_char_app. apply orb_true_iff. left. reflexivity.
Qed.

Lemma str_groups_spec indent gs :
  str_groups indent gs <> "(no diffs)" <-> existsb (fun g => existsb (fun hs => fst hs) (snd g)) gs = true.
Proof.
  unfold str_groups.
  set (f := fun g : string * list (bool * string) =>
    match map snd (filter (fun hs => fst hs) (snd g)) with
    | [] => [] | ls => (spaces indent ++ fst g)%string :: ls end).
  assert (F : forall g, existsb (fun hs => fst hs) (snd g) = false -> f g = []).
  { intros [t l]; unfold f; simpl. induction l as [|[h s] l IH]; simpl; [reflexivity|].
    destruct h; simpl; [discriminate|]. exact IH. }
  assert (F2 : forall g, existsb (fun hs : bool * string => fst hs) (snd g) = true -> exists a b l, f g = a :: b :: l).
  { intros [t l]; unfold f; simpl. induction l as [|[h s] l IH]; simpl; [discriminate|].
    destruct h; simpl; [eauto|]. exact IH. }
  destruct (existsb _ gs) eqn:E.
  - split; [reflexivity|]. intros _.
    assert (H : exists a b l, flat_map f gs = a :: b :: l).
    { induction gs as [|g gs IH]; simpl in *; [discriminate|].
      apply orb_true_iff in E as [E|E].
      - apply F2 in E as (a & b & l & E). rewrite E. simpl. eauto.
      - destruct (IH E) as (a & b & l & E'). rewrite E'. destruct (f g) as [|x [|y l']]; simpl; eauto. }
    destruct H as (a & b & l & E'). rewrite E'. intros H.
    pose proof (join2_newline a b l) as J. destruct (join newline (a :: b :: l)); [discriminate|].
    rewrite H in J. discriminate.
  - split; [|discriminate]. intros H. exfalso. apply H.
    assert (E' : flat_map f gs = []).
    { clear H. induction gs as [|g gs IH]; simpl in *; [reflexivity|].
      apply orb_false_iff in E as [E1 E2]. rewrite (F g E1). now apply IH. }
    rewrite E'. reflexivity.
Qed.

Lemma diff_str_spec d indent : diff_str d indent <> "(no diffs)" <-> diff_has_diffs d = true.
Proof.
  unfold diff_str. rewrite str_groups_spec. unfold diff_has_diffs, groups_have_diffs.
  assert (E : existsb (fun g => existsb (fun hs => fst hs) (snd g))
     (map (fun g => (fst g, map (fun kv => (elem_has_diffs (snd kv), elem_str (snd kv) (indent + 2))) (snd g))) (d_groups d))
     = existsb (fun g => existsb (fun kv => elem_has_diffs (snd kv)) (snd g)) (d_groups d)).
  { induction (d_groups d) as [|[t g] gs IH]; simpl; [reflexivity|]. rewrite IH. f_equal.
    induction g as [|[n x] g IHg]; simpl; [reflexivity|]. now rewrite IHg. }
  now rewrite E.
Qed.

(** ** Diff.add *)
Lemma groups_add_err gs e x : groups_add gs e = Err x ->
  x = ObjectAlreadyExists /\ dmem (group_of gs (e_type e)) (e_name e) = true.
Proof. unfold groups_add. destruct (dmem _ _); [|discriminate]. intros H; injection H as <-. auto. Qed.

Lemma In_groups gs t (g : dict elem) : NoDup (dkeys gs) -> In (t, g) gs -> group_of gs t = g.
Proof. intros ND H. unfold group_of. now rewrite (In_dget gs t g ND H). Qed.

Lemma In_dset {A} (d : dict A) k v k' v' :
  NoDup (dkeys d) -> In (k', v') (dset d k v) -> (k' = k /\ v' = v) \/ (k' <> k /\ In (k', v') d).
Proof.
  intros ND H. pose proof (In_dget _ _ _ (NoDup_dset d k v ND) H) as G.
  rewrite dget_dset in G. destruct (String.eqb_spec k' k).
  - injection G as <-. auto.
  - right. split; [assumption|]. now apply dget_Some_In.
Qed.

Lemma NoDup_group_of gs t : (forall t g, In (t, g) gs -> NoDup (dkeys g)) -> NoDup (dkeys (@group_of elem gs t)).
Proof.
  intros H. unfold group_of. destruct (dget gs t) eqn:E; [|constructor].
  apply (H t). now apply dget_Some_In.
Qed.

Lemma groups_add_ok gs e gs' :
  tree_ok gs -> tree_ok (e_kids e) -> groups_add gs e = Ok gs' -> tree_ok gs'.
Proof.
  intros Hgs He. unfold groups_add. destruct (dmem _ _) eqn:Em; [discriminate|]. intros H; injection H as <-.
  inversion Hgs as [gs0 H1 H2 H3 H4]; subst.
  assert (Hg : NoDup (dkeys (group_of gs (e_type e)))) by (now apply NoDup_group_of).
  constructor.
  - now apply NoDup_dset.
  - intros t g Hin. apply In_dset in Hin as [[-> ->]|[_ Hin]]; [|eauto|exact H1]. now apply NoDup_dset.
  - intros t g n x Hin Hx. apply In_dset in Hin as [[-> ->]|[_ Hin]]; [|eauto|exact H1].
    apply In_dset in Hx as [[-> ->]|[_ Hx]]; [auto| |exact Hg].
    unfold group_of in Hx. destruct (dget gs (e_type e)) eqn:E; [|destruct Hx].
    apply dget_Some_In in E. eauto.
  - intros t g n x Hin Hx. apply In_dset in Hin as [[-> ->]|[_ Hin]]; [|eauto|exact H1].
    apply In_dset in Hx as [[-> ->]|[_ Hx]]; [auto| |exact Hg].
    unfold group_of in Hx. destruct (dget gs (e_type e)) eqn:E; [|destruct Hx].
    apply dget_Some_In in E. eauto.
Qed.

Lemma tree_ok_nil : tree_ok [].
Proof. constructor; simpl; try tauto. constructor. Qed.

(** ** Writing "+" over the destination *)
Lemma dget_dupdate {A} (p d : dict A) k : NoDup (dkeys p) ->
  dget (dupdate d p) k = match dget p k with Some v => Some v | None => dget d k end.
Proof.
  unfold dupdate. revert d. induction p as [|[k' v'] p IH]; intros d ND; simpl; [reflexivity|].
  inversion ND as [|? ? Hn Hp]; subst. rewrite IH by exact Hp. rewrite dget_dset.
  destruct (String.eqb_spec k k'); subst; [|reflexivity].
  destruct (dget p k') eqn:E; [|reflexivity]. exfalso. apply Hn. eapply dget_Some_key; eauto.
Qed.

Lemma pick_keys_gen (d1 d2 : dict val) ks :
  (forall k, In k ks -> In k (dkeys d1) /\ In k (dkeys d2)) ->
  forall a1 a2 : dict val, dkeys a1 = dkeys a2 ->
  dkeys (fold_left (fun acc k => match dget d1 k with Some v => dset acc k v | None => acc end) ks a1) =
  dkeys (fold_left (fun acc k => match dget d2 k with Some v => dset acc k v | None => acc end) ks a2).
Proof.
  induction ks as [|k ks IH]; intros H a1 a2 E; simpl; [exact E|].
  destruct (H k (or_introl eq_refl)) as [H1 H2].
  destruct (dget d1 k) eqn:E1; [|now apply dget_None in E1].
  destruct (dget d2 k) eqn:E2; [|now apply dget_None in E2].
  apply IH; [intros; apply H; now right|].
  rewrite !dkeys_dset, E.
  assert (M : dmem a1 k = dmem a2 k).
  { destruct (dmem a1 k) eqn:M1, (dmem a2 k) eqn:M2; try reflexivity.
    - apply dmem_In in M1. rewrite E in M1. apply dmem_In in M1. congruence.
    - apply dmem_In in M2. rewrite <- E in M2. apply dmem_In in M2. congruence. }
  now rewrite M.
Qed.

Lemma attrs_diffs_spec s d :
  exists p m,
    get_attrs_diffs (Some s) (Some d) = mkAD (Some p) (Some m) /\
    NoDup (dkeys p) /\ dkeys p = dkeys m /\
    forall k,
      (shared_unequal s d k -> dget p k = dget s k /\ dget m k = dget d k) /\
      (~ shared_unequal s d k -> dget p k = None /\ dget m k = None).
Proof.
  eexists _, _. split; [reflexivity|]. split; [apply NoDup_pick|]. split.
  - apply pick_keys_gen; [|reflexivity]. intros k H. apply filter_In in H as [H _].
    simpl in H. apply In_intersection in H. tauto.
  - apply attrs_diffs_both. reflexivity.
Qed.

Lemma attrs_diffs_apply s d p m :
  get_attrs_diffs (Some s) (Some d) = mkAD (Some p) (Some m) ->
  (forall k x, dget s k = Some x -> py_eq x x = true) ->
  forall k, ~ shared_unequal s (dupdate d p) k /\
            (~ shared_unequal s d k -> dget (dupdate d p) k = dget d k).
Proof.
  intros E Hs k.
  assert (ND : NoDup (dkeys p)). { unfold get_attrs_diffs in E. injection E as <- _. apply NoDup_pick. }
  destruct (attrs_diffs_both _ _ _ _ E k) as [H1 H2]. split.
  - intros (x & y & Hx & Hy & Hxy). rewrite dget_dupdate in Hy by exact ND.
    destruct (dget p k) as [v|] eqn:Ep.
    + injection Hy as ->.
      destruct (py_eq x y) eqn:F; [discriminate|].
      assert (N : shared_unequal s d k \/ ~ shared_unequal s d k).
      { unfold shared_unequal. destruct (dget s k) as [a|]; [|right; intros (? & ? & ? & _); discriminate].
        destruct (dget d k) as [b|]; [|right; intros (? & ? & _ & ? & _); discriminate].
        destruct (py_eq a b) eqn:Q; [|left; exists a, b; auto].
        right. intros (a' & b' & Ha & Hb & Hab). congruence. }
      destruct N as [N|N].
      * destruct (H1 N) as [H1' _]. rewrite Hx in H1'. injection H1' as ->. rewrite (Hs k x Hx) in F. discriminate.
      * destruct (H2 N) as [H2' _]. discriminate.
    + assert (N : shared_unequal s d k) by (exists x, y; auto).
      destruct (H1 N) as [H1' _]. congruence.
  - intros N. destruct (H2 N) as [H2' _]. rewrite dget_dupdate by exact ND. now rewrite H2'.
Qed.

(** ** Looking an element up by type and name *)
Lemma groups_add_spec gs e :
  match dget (group_of gs (e_type e)) (e_name e) with
  | Some _ => groups_add gs e = Err ObjectAlreadyExists
  | None => exists gs', groups_add gs e = Ok gs' /\
      (forall t n, dget (group_of gs' t) n =
         if String.eqb t (e_type e) && String.eqb n (e_name e) then Some e else dget (group_of gs t) n) /\
      (forall t, dvals (group_of gs' t) = dvals (group_of gs t) ++ (if String.eqb t (e_type e) then [e] else [])) /\
      dkeys gs' = dkeys gs ++ (if dmem gs (e_type e) then [] else [e_type e])
  end.
Proof.
  unfold groups_add. destruct (dget (group_of gs (e_type e)) (e_name e)) eqn:E.
  { assert (dmem (group_of gs (e_type e)) (e_name e) = true) as -> by (apply dmem_true; eauto). reflexivity. }
  assert (dmem (group_of gs (e_type e)) (e_name e) = false) as -> by (now apply dmem_false).
  eexists. split; [reflexivity|]. split; [|split].
  - intros t n. unfold group_of at 1. rewrite dget_dset. destruct (String.eqb_spec t (e_type e)); subst; simpl.
    + rewrite dget_dset. destruct (String.eqb n (e_name e)); reflexivity.
    + reflexivity.
  - intros t. unfold group_of at 1. rewrite dget_dset. destruct (String.eqb_spec t (e_type e)); subst; simpl.
    + now rewrite dvals_dset_absent.
    + unfold group_of. now rewrite app_nil_r.
  - rewrite dkeys_dset. destruct (dmem gs (e_type e)); [now rewrite app_nil_r|reflexivity].
Qed.

Lemma has_diffs_agree (d : diff) (indent : nat) :
  yields_all (dc_order (d_class d)) ->
  (diff_has_diffs d = true <-> exists x, occurs x (d_groups d) /\ e_action x <> None) /\
  (diff_has_diffs d = true <->
     n_create (diff_counts d) + n_update (diff_counts d) + n_delete (diff_counts d) <> 0) /\
  (diff_has_diffs d = true <-> diff_dict d <> []) /\
  (diff_has_diffs d = true <-> diff_str d indent <> "(no diffs)").
Proof.
  intros Hord. split; [apply groups_have_diffs_spec|]. split; [|split].
  - unfold diff_has_diffs, diff_counts. rewrite groups_have_diffs_spec. set (ord := dc_order (d_class d)) in *.
    pose proof (groups_counts_pos ord (Some ACreate) (d_groups d) Hord) as H1.
    pose proof (groups_counts_pos ord (Some AUpdate) (d_groups d) Hord) as H2.
    pose proof (groups_counts_pos ord (Some ADelete) (d_groups d) Hord) as H3.
    simpl in H1, H2, H3. split.
    + intros (x & Hx & Ha). destruct (e_action x) as [[]|] eqn:E; [| | |congruence].
      * assert (n_create (groups_counts ord (d_groups d)) > 0) by (apply H1; eauto). lia.
      * assert (n_update (groups_counts ord (d_groups d)) > 0) by (apply H2; eauto). lia.
      * assert (n_delete (groups_counts ord (d_groups d)) > 0) by (apply H3; eauto). lia.
    + intros H.
      assert (C : n_create (groups_counts ord (d_groups d)) > 0 \/ n_update (groups_counts ord (d_groups d)) > 0
                  \/ n_delete (groups_counts ord (d_groups d)) > 0) by lia.
      destruct C as [C|[C|C]]; [apply H1 in C|apply H2 in C|apply H3 in C];
        destruct C as (x & Hx & Ha); exists x; split; congruence.
  - exact (iff_sym (groups_dict_nonempty _ (d_groups d) Hord)).
  - exact (iff_sym (diff_str_spec d indent)).
Qed.

Lemma len_summary (d : diff) :
  yields_once (dc_order (d_class d)) ->
  diff_len d = length (tree_all (d_groups d)) /\
  diff_len d = n_create (diff_counts d) + n_update (diff_counts d) + n_delete (diff_counts d) + n_nochange (diff_counts d) /\
  n_create (diff_counts d) = how_many (is_action (Some ACreate)) (tree_all (d_groups d)) /\
  n_update (diff_counts d) = how_many (is_action (Some AUpdate)) (tree_all (d_groups d)) /\
  n_delete (diff_counts d) = how_many (is_action (Some ADelete)) (tree_all (d_groups d)) /\
  n_nochange (diff_counts d) = how_many (is_action None) (tree_all (d_groups d)).
Proof.
  intros Hord.
  pose proof (groups_counts_spec _ (Some ACreate) (d_groups d) Hord) as H1.
  pose proof (groups_counts_spec _ (Some AUpdate) (d_groups d) Hord) as H2.
  pose proof (groups_counts_spec _ (Some ADelete) (d_groups d) Hord) as H3.
  pose proof (groups_counts_spec _ None (d_groups d) Hord) as H4.
  simpl sel_count in *. unfold diff_counts.
  pose proof (groups_len_spec _ (d_groups d) Hord) as L.
  change (groups_len (dc_order (d_class d)) (d_groups d)) with (diff_len d) in L.
  rewrite H1, H2, H3, H4, L.
  split; [reflexivity|]. split; [symmetry; exact (how_many_partition _)|].
  split; [reflexivity|]. split; [reflexivity|]. split; reflexivity.
Qed.

Lemma diff_add_spec (d : diff) (e : elem) :
  match dget (group_of (d_groups d) (e_type e)) (e_name e) with
  | Some _ => diff_add d e = Err ObjectAlreadyExists
  | None => exists d', diff_add d e = Ok d' /\
      d_class d' = d_class d /\ d_processed d' = d_processed d /\
      (forall t n, dget (group_of (d_groups d') t) n =
         if String.eqb t (e_type e) && String.eqb n (e_name e) then Some e
         else dget (group_of (d_groups d) t) n) /\
      (forall t, dvals (group_of (d_groups d') t) =
         dvals (group_of (d_groups d) t) ++ (if String.eqb t (e_type e) then [e] else [])) /\
      groups d' = groups d ++ (if smem (e_type e) (groups d) then [] else [e_type e])
  end.
Proof.
  pose proof (groups_add_spec (d_groups d) e) as H. unfold diff_add.
  destruct (dget _ _); [now rewrite H|].
  destruct H as (gs' & -> & H1 & H2 & H3). eexists. split; [reflexivity|]. simpl.
  repeat (split; [auto|]). unfold groups. simpl. rewrite H3. f_equal.
  destruct (dmem (d_groups d) (e_type e)) eqn:E, (smem (e_type e) (dkeys (d_groups d))) eqn:F; try reflexivity.
  - apply dmem_In in E. apply smem_In in E. congruence.
  - apply smem_In in F. apply dmem_In in F. congruence.
Qed.

Lemma adds_unique_gen (es : list elem) : forall (d d' : diff),
  (forall e, In e es -> tree_ok (e_kids e)) -> tree_ok (d_groups d) ->
  adds d es = Ok d' -> tree_ok (d_groups d').
Proof.
  induction es as [|e es IH]; intros d d' Hes Hd; simpl.
  - intros H. injection H as <-. exact Hd.
  - unfold diff_add. destruct (groups_add (d_groups d) e) as [gs|] eqn:E; simpl; [|discriminate].
    apply IH; [intros; apply Hes; now right|]. simpl. eapply groups_add_ok; eauto. apply Hes. now left.
Qed.
Lemma adds_unique (dc : diffclass) (es : list elem) (d : diff) :
  (forall e, In e es -> tree_ok (e_kids e)) ->
  adds (empty_diff dc) es = Ok d -> tree_ok (d_groups d).
Proof. intros H. apply adds_unique_gen; [exact H|apply tree_ok_nil]. Qed.
