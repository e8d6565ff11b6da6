(** * BaseFacts: lemmas about dictionaries, lists, values and the monad. *)
From Verif Require Export Base.

(** ** Dictionaries *)
Section DictFacts.
  Context {A : Type}.
  Implicit Types (d : dict A) (k : string) (v : A).

  Lemma dget_dset_eq d k v : dget (dset d k v) k = Some v.
  Proof.
    induction d as [|[k' v'] d IH]; simpl.
    - now rewrite String.eqb_refl.
    - destruct (String.eqb k k') eqn:E; simpl; rewrite E; [reflexivity|exact IH].
  Qed.

  Lemma dget_dset_neq d k k' v : k <> k' -> dget (dset d k v) k' = dget d k'.
  Proof.
    intros N. induction d as [|[k0 v0] d IH]; simpl.
    - destruct (String.eqb_spec k' k); [congruence|reflexivity].
    - destruct (String.eqb_spec k k0); simpl.
      + subst. destruct (String.eqb_spec k' k0); [congruence|reflexivity].
      + destruct (String.eqb_spec k' k0); [reflexivity|exact IH].
  Qed.

  Lemma dget_dset d k k' v :
    dget (dset d k v) k' = if String.eqb k' k then Some v else dget d k'.
  Proof.
    destruct (String.eqb_spec k' k) as [->|N].
    - apply dget_dset_eq.
    - apply dget_dset_neq. congruence.
  Qed.

  Lemma dget_None d k : dget d k = None <-> ~ In k (dkeys d).
  Proof.
    induction d as [|[k' v'] d IH]; simpl; [tauto|].
    destruct (String.eqb_spec k k'); subst.
    - split; [discriminate|tauto].
    - rewrite IH. split; intuition congruence.
  Qed.

  Lemma dget_Some_In d k v : dget d k = Some v -> In (k, v) d.
  Proof.
    induction d as [|[k' v'] d IH]; simpl; [discriminate|].
    destruct (String.eqb_spec k k'); subst; intros H; [injection H as ->; auto|auto].
  Qed.

  Lemma dget_Some_key d k v : dget d k = Some v -> In k (dkeys d).
  Proof. intros H. apply dget_Some_In in H. apply (in_map fst) in H. exact H. Qed.

  Lemma In_dget d k v : NoDup (dkeys d) -> In (k, v) d -> dget d k = Some v.
  Proof.
    induction d as [|[k' v'] d IH]; simpl; [tauto|].
    intros ND [H|H].
    - injection H as -> ->. now rewrite String.eqb_refl.
    - inversion ND as [|? ? Hn Hd]; subst.
      destruct (String.eqb_spec k k'); subst.
      + exfalso. apply Hn. apply (in_map fst) in H. exact H.
      + auto.
  Qed.

  Lemma dmem_In d k : dmem d k = true <-> In k (dkeys d).
  Proof.
    unfold dmem. destruct (dget d k) eqn:E.
    - split; [intros _; eapply dget_Some_key; eauto|reflexivity].
    - apply dget_None in E. split; [discriminate|tauto].
  Qed.
  Lemma dmem_false d k : dmem d k = false <-> dget d k = None.
  Proof. unfold dmem. destruct (dget d k); split; congruence. Qed.
  Lemma dmem_true d k : dmem d k = true <-> exists v, dget d k = Some v.
  Proof. unfold dmem. destruct (dget d k) eqn:E; split; try congruence; eauto. intros [v H]; discriminate. Qed.

  Lemma dset_absent d k v : dget d k = None -> dset d k v = d ++ [(k, v)].
  Proof.
    induction d as [|[k' v'] d IH]; simpl; [reflexivity|].
    destruct (String.eqb k k') eqn:E; [discriminate|].
    intros H. now rewrite IH.
  Qed.

  Lemma dkeys_dset d k v :
    dkeys (dset d k v) = if dmem d k then dkeys d else dkeys d ++ [k].
  Proof.
    unfold dmem. induction d as [|[k' v'] d IH]; simpl; [reflexivity|].
    destruct (String.eqb k k') eqn:E; simpl.
    - reflexivity.
    - rewrite IH. now destruct (dget d k).
  Qed.

  Lemma In_dkeys_dset d k v k' : In k' (dkeys (dset d k v)) <-> k' = k \/ In k' (dkeys d).
  Proof.
    rewrite dkeys_dset. destruct (dmem d k) eqn:E.
    - apply dmem_In in E. split; [tauto|]. intros [->|H]; assumption.
    - rewrite in_app_iff. simpl. intuition.
  Qed.

  Lemma NoDup_dset d k v : NoDup (dkeys d) -> NoDup (dkeys (dset d k v)).
  Proof.
    intros H. rewrite dkeys_dset. destruct (dmem d k) eqn:E; [exact H|].
    apply dmem_false in E. apply dget_None in E.
    clear v. induction (dkeys d) as [|x l IH]; simpl.
    - constructor; [tauto|constructor].
    - inversion H; subst. constructor.
      + rewrite in_app_iff. simpl in *. intuition.
      + apply IH; [assumption|]. simpl in E. tauto.
  Qed.

  Lemma dset_same d k v : dget d k = Some v -> dset d k v = d.
  Proof.
    induction d as [|[k' v'] d IH]; simpl; [discriminate|].
    destruct (String.eqb k k') eqn:E.
    - intros H; injection H as ->. reflexivity.
    - intros H. now rewrite IH.
  Qed.

  Lemma dset_dset d k v1 v2 : dset (dset d k v1) k v2 = dset d k v2.
  Proof.
    induction d as [|[k' v'] d IH]; simpl.
    - now rewrite String.eqb_refl.
    - destruct (String.eqb k k') eqn:E; simpl; rewrite E; congruence.
  Qed.

  Lemma ddel_absent d k : dget d k = None -> ddel d k = d.
  Proof.
    induction d as [|[k' v'] d IH]; simpl; [reflexivity|].
    destruct (String.eqb k k') eqn:E; [discriminate|]. intros H. now rewrite IH.
  Qed.

  Lemma In_dkeys_ddel d k k' : In k' (dkeys (ddel d k)) -> In k' (dkeys d).
  Proof.
    induction d as [|[k0 v0] d IH]; simpl; [tauto|].
    destruct (String.eqb k k0); simpl; tauto.
  Qed.

  Lemma NoDup_ddel d k : NoDup (dkeys d) -> NoDup (dkeys (ddel d k)).
  Proof.
    induction d as [|[k' v'] d IH]; simpl; [auto|].
    intros H; inversion H; subst. destruct (String.eqb k k'); [assumption|].
    simpl. constructor; [|auto]. intros Hin. apply In_dkeys_ddel in Hin. auto.
  Qed.

  Lemma dget_ddel_eq d k : NoDup (dkeys d) -> dget (ddel d k) k = None.
  Proof.
    induction d as [|[k' v'] d IH]; simpl; [reflexivity|].
    intros H; inversion H; subst.
    destruct (String.eqb_spec k k'); subst.
    - now apply dget_None.
    - simpl. destruct (String.eqb_spec k k'); [congruence|auto].
  Qed.

  Lemma dget_ddel_neq d k k' : k <> k' -> dget (ddel d k) k' = dget d k'.
  Proof.
    intros N. induction d as [|[k0 v0] d IH]; simpl; [reflexivity|].
    destruct (String.eqb_spec k k0); subst.
    - destruct (String.eqb_spec k' k0); [congruence|reflexivity].
    - simpl. destruct (String.eqb_spec k' k0); [reflexivity|exact IH].
  Qed.

  Lemma dget_ddel d k k' : NoDup (dkeys d) ->
    dget (ddel d k) k' = if String.eqb k' k then None else dget d k'.
  Proof.
    intros H. destruct (String.eqb_spec k' k) as [->|N].
    - now apply dget_ddel_eq.
    - apply dget_ddel_neq. congruence.
  Qed.

  Lemma length_ddel d k v : dget d k = Some v -> S (length (ddel d k)) = length d.
  Proof.
    induction d as [|[k' v'] d IH]; simpl; [discriminate|].
    destruct (String.eqb k k'); [reflexivity|]. intros H. simpl. now rewrite IH.
  Qed.

  Lemma length_dset d k v : length (dset d k v) = if dmem d k then length d else S (length d).
  Proof.
    unfold dmem. induction d as [|[k' v'] d IH]; simpl; [reflexivity|].
    destruct (String.eqb k k') eqn:E; simpl; [reflexivity|].
    rewrite IH. destruct (dget d k); reflexivity.
  Qed.

  Lemma ddel_dset d k v : dget d k = None -> ddel (dset d k v) k = d.
  Proof.
    induction d as [|[k' v'] d IH]; simpl.
    - intros _. now rewrite String.eqb_refl.
    - destruct (String.eqb k k') eqn:E; [discriminate|].
      intros H. simpl. rewrite E. now rewrite IH.
  Qed.

  Lemma dget_app d1 d2 k :
    dget (d1 ++ d2) k = match dget d1 k with Some v => Some v | None => dget d2 k end.
  Proof.
    induction d1 as [|[k' v'] d1 IH]; simpl; [reflexivity|].
    destruct (String.eqb k k'); [reflexivity|exact IH].
  Qed.

  Lemma dget_filter_key (p : string -> bool) d k :
    dget (filter (fun kv => p (fst kv)) d) k = if p k then dget d k else None.
  Proof.
    induction d as [|[k' v'] d IH]; simpl.
    - now destruct (p k).
    - destruct (String.eqb_spec k k'); subst.
      + destruct (p k') eqn:P; simpl; [now rewrite String.eqb_refl|]. exact IH.
      + destruct (p k') eqn:P; simpl; [|exact IH].
        destruct (String.eqb_spec k k'); [congruence|exact IH].
  Qed.

  Lemma dkeys_filter_key (p : string -> bool) d :
    dkeys (filter (fun kv => p (fst kv)) d) = filter p (dkeys d).
  Proof.
    induction d as [|[k' v'] d IH]; simpl; [reflexivity|].
    destruct (p k'); simpl; now rewrite IH.
  Qed.

  Lemma In_dvals d v : In v (dvals d) -> exists k, In (k, v) d.
  Proof. unfold dvals. rewrite in_map_iff. intros [[k v'] [<- H]]. eauto. Qed.
  Lemma In_dvals_of d k v : In (k, v) d -> In v (dvals d).
  Proof. intros H. apply (in_map snd) in H. exact H. Qed.

  Lemma dvals_dset_absent d k v : dget d k = None -> dvals (dset d k v) = dvals d ++ [v].
  Proof. intros H. rewrite dset_absent by exact H. unfold dvals. now rewrite map_app. Qed.
End DictFacts.

Lemma dget_map {A B} (f : A -> B) (d : dict A) k :
  dget (map (fun kv => (fst kv, f (snd kv))) d) k = option_map f (dget d k).
Proof.
  induction d as [|[k' v'] d IH]; simpl; [reflexivity|].
  destruct (String.eqb k k'); [reflexivity|exact IH].
Qed.

Lemma dkeys_map {A B} (f : A -> B) (d : dict A) :
  dkeys (map (fun kv => (fst kv, f (snd kv))) d) = dkeys d.
Proof. unfold dkeys. rewrite map_map. reflexivity. Qed.

(** ** Lists of strings *)
Lemma smem_In x l : smem x l = true <-> In x l.
Proof.
  unfold smem. rewrite existsb_exists. split.
  - intros [y [H E]]. apply String.eqb_eq in E. now subst.
  - intros H. exists x. split; [exact H|apply String.eqb_refl].
Qed.
Lemma smem_false x l : smem x l = false <-> ~ In x l.
Proof.
  rewrite <- smem_In. destruct (smem x l); split; intros; try congruence.
Qed.

Lemma In_sdedup x l : In x (sdedup l) <-> In x l.
Proof.
  induction l as [|y l IH]; simpl; [tauto|].
  destruct (smem y l) eqn:E.
  - rewrite IH. apply smem_In in E. split; [auto|]. intros [->|H]; auto.
  - simpl. rewrite IH. tauto.
Qed.
Lemma NoDup_sdedup l : NoDup (sdedup l).
Proof.
  induction l as [|y l IH]; simpl; [constructor|].
  destruct (smem y l) eqn:E; [exact IH|].
  constructor; [|exact IH]. rewrite In_sdedup. now apply smem_false.
Qed.

Lemma sinsert_perm x l : Permutation (sinsert x l) (x :: l).
Proof.
  induction l as [|y l IH]; simpl; [reflexivity|].
  destruct (String.leb x y); [reflexivity|].
  rewrite IH. apply perm_swap.
Qed.
Lemma ssort_perm l : Permutation (ssort l) l.
Proof.
  induction l as [|y l IH]; simpl; [reflexivity|].
  rewrite sinsert_perm. now constructor.
Qed.
Lemma In_ssort x l : In x (ssort l) <-> In x l.
Proof.
  split; apply Permutation_in; [apply ssort_perm|symmetry; apply ssort_perm].
Qed.
Lemma NoDup_ssort l : NoDup l -> NoDup (ssort l).
Proof. intros H. eapply Permutation_NoDup; [symmetry; apply ssort_perm|exact H]. Qed.

Lemma In_intersection x l1 l2 : In x (intersection l1 l2) <-> In x l1 /\ In x l2.
Proof. unfold intersection. rewrite filter_In, smem_In. tauto. Qed.
Lemma NoDup_intersection l1 l2 : NoDup l1 -> NoDup (intersection l1 l2).
Proof. intros. now apply NoDup_filter. Qed.
Lemma In_symmetric_difference x l1 l2 :
  In x (symmetric_difference l1 l2) <-> (In x l1 /\ ~ In x l2) \/ (In x l2 /\ ~ In x l1).
Proof.
  unfold symmetric_difference. rewrite In_ssort, In_sdedup, in_app_iff, !filter_In.
  rewrite !negb_true_iff, !smem_false. tauto.
Qed.

(** ** Values *)

(** No float NaN inside; no key of a dict twice *)
Fixpoint nan_free (v : val) : bool :=
  match v with
  | VNaN => false
  | VList l => forallb nan_free l
  | VDict d => (fix once (l : list (string * val)) : bool :=
                  match l with [] => true | kv :: l' => negb (dmem l' (fst kv)) && once l' end) d &&
               forallb (fun kv => nan_free (snd kv)) d
  | _ => true
  end.

(** Induction over values, with the hypothesis for every member *)
Lemma val_ind' (P : val -> Prop) :
  P VNone -> (forall b, P (VBool b)) -> (forall z, P (VInt z)) -> P VNaN ->
  (forall s, P (VStr s)) -> (forall l, Forall P l -> P (VList l)) ->
  (forall d, Forall (fun kv => P (snd kv)) d -> P (VDict d)) -> forall v, P v.
Proof.
  intros HN HB HI HA HS HL HD.
  fix IH 1. intros [ | b | z | | s | l | d].
  - exact HN. - apply HB. - apply HI. - exact HA. - apply HS.
  - apply HL. induction l as [|x l IHl]; constructor; [apply IH|exact IHl].
  - apply HD. induction d as [|[k x] d IHd]; constructor; [apply IH|exact IHd].
Qed.

Fixpoint list_eqv (l m : list val) : bool :=
  match l, m with
  | [], [] => true
  | x :: l', y :: m' => py_eq x y && list_eqv l' m'
  | _, _ => false
  end.
Lemma py_eq_list l m : py_eq (VList l) (VList m) = list_eqv l m.
Proof. reflexivity. Qed.
(** [m] has every key of [l], with an equal value *)
Definition covers (l m : dict val) : Prop := forall k v, In (k, v) l -> exists v', dget m k = Some v' /\ py_eq v v' = true.
Lemma and_iff_compat (A B C D : Prop) : (A <-> C) -> (B <-> D) -> (A /\ B <-> C /\ D).
Proof. tauto. Qed.
Lemma py_eq_dicts l m : py_eq (VDict l) (VDict m) = true <->
  covers l m /\ forall k v', In (k, v') m -> exists v, dget l k = Some v /\ py_eq v v' = true.
Proof.
  simpl. rewrite andb_true_iff. apply and_iff_compat.
  - unfold covers. induction l as [|[k v] l IH]; [split; [intros _ ? ? []|reflexivity]|]. rewrite andb_true_iff, IH. split.
    + intros [A B] k' v' [E|I]; [|eauto]. injection E as <- <-. destruct (dget m k) as [v'|]; [eauto|discriminate].
    + intros H. split; [|intros; apply H; now right]. destruct (H k v (or_introl eq_refl)) as (v' & G & E). now rewrite G.
  - rewrite forallb_forall. assert (F : forall k v' l0, (fix find (l0 : list (string * val)) : bool :=
        match l0 with [] => false | (k0, v) :: l' => if String.eqb k k0 then py_eq v v' else find l' end) l0 = true <-> exists v, dget l0 k = Some v /\ py_eq v v' = true).
    { intros k v' l0. induction l0 as [|[k0 v] l0 IH]; simpl; [split; [discriminate|intros (? & ? & _); discriminate]|].
      destruct (String.eqb k k0); [|exact IH]. split; [eauto|]. intros (v1 & E & H). now injection E as <-. }
    split.
    + intros H k v' I. specialize (H _ I). simpl in H. now apply F in H.
    + intros H [k v'] I. simpl. apply F. now apply H.
Qed.
Lemma nan_free_dict d : nan_free (VDict d) = true -> NoDup (dkeys d) /\ Forall (fun kv => nan_free (snd kv) = true) d.
Proof.
  simpl. rewrite andb_true_iff. intros [A B]. split; [|now apply Forall_forall, forallb_forall].
  clear B. induction d as [|[k v] d IH]; [constructor|]. simpl in A. apply andb_true_iff in A as [A1 A2]. constructor; [|now apply IH].
  intros I. apply negb_true_iff in A1. apply in_map_iff in I as ([k' v'] & E & I). simpl in E. subst k'.
  unfold dmem in A1. destruct (dget d k) eqn:G; [discriminate|]. apply dget_None in G. apply G. apply in_map_iff. exists (k, v'). auto.
Qed.

Lemma py_eq_refl v : nan_free v = true -> py_eq v v = true.
Proof.
  induction v as [ | b | z | | s | l IH | d IH] using val_ind'; intros H; try discriminate.
  - reflexivity.
  - simpl. apply Bool.eqb_reflx.
  - simpl. apply Z.eqb_refl.
  - simpl. apply String.eqb_refl.
  - rewrite py_eq_list. induction l as [|x l IHl]; [reflexivity|].
    simpl in *. apply andb_prop in H as [H1 H2].
    inversion IH; subst. rewrite H3 by exact H1. apply IHl; assumption.
  - apply nan_free_dict in H as [ND F]. rewrite Forall_forall in IH, F. apply py_eq_dicts.
    split; intros k v I; exists v; (split; [now apply In_dget|]); exact (IH _ I (F _ I)).
Qed.

Lemma py_eq_sym a b : py_eq a b = py_eq b a.
Proof.
  revert b. induction a as [ | x | z | | s | l IH | d IH] using val_ind'; intros [ | y | z' | | s' | m | m];
    try reflexivity.
  - simpl. destruct x, y; reflexivity.
  - simpl. apply Z.eqb_sym.
  - simpl. apply Z.eqb_sym.
  - simpl. apply Z.eqb_sym.
  - simpl. apply String.eqb_sym.
  - rewrite !py_eq_list. revert m. induction l as [|x l IHl]; intros [|y m]; try reflexivity.
    inversion IH; subst. simpl. rewrite H1. f_equal. apply IHl. assumption.
  - rewrite Forall_forall in IH. apply eq_true_iff_eq. rewrite !py_eq_dicts. unfold covers. split; intros [A B]; split; intros k v I.
    + destruct (B k v I) as (v' & G & E). exists v'. split; [exact G|]. rewrite <- (IH (k, v') (dget_Some_In _ _ _ G)). exact E.
    + destruct (A k v I) as (v' & G & E). exists v'. split; [exact G|]. rewrite <- (IH (k, v) I). exact E.
    + destruct (B k v I) as (v' & G & E). exists v'. split; [exact G|]. rewrite (IH (k, v) I). exact E.
    + destruct (A k v I) as (v' & G & E). exists v'. split; [exact G|]. rewrite (IH (k, v') (dget_Some_In _ _ _ G)). exact E.
Qed.

Lemma py_eq_trans a b c : py_eq a b = true -> py_eq b c = true -> py_eq a c = true.
Proof.
  revert b c. induction a as [ | x | z | | s | l IH | d IH] using val_ind'; intros [ | y | z' | | s' | m | m] [ | y' | z'' | | s'' | n | n];
    try discriminate; try reflexivity.
  all: try (simpl; rewrite ?Z.eqb_eq, ?eqb_true_iff, ?String.eqb_eq; intros; subst; try reflexivity; congruence).
  - simpl. rewrite !Z.eqb_eq. intros. destruct x, y'; simpl in *; try lia; reflexivity.
  - rewrite !py_eq_list. revert m n. induction l as [|x l IHl]; intros [|y m] [|y' n]; try discriminate; try reflexivity.
    simpl. intros H1 H2. apply andb_prop in H1 as [H1 H1']. apply andb_prop in H2 as [H2 H2'].
    inversion IH; subst. rewrite (H3 _ _ H1 H2). simpl. eapply IHl; eassumption.
  - rewrite Forall_forall in IH. rewrite !py_eq_dicts. unfold covers. intros [A1 A2] [B1 B2]. split; intros k v I.
    + destruct (A1 k v I) as (v1 & G1 & E1). destruct (B1 k v1 (dget_Some_In _ _ _ G1)) as (v2 & G2 & E2).
      exists v2. split; [exact G2|]. exact (IH (k, v) I _ _ E1 E2).
    + destruct (B2 k v I) as (v1 & G1 & E1). destruct (A2 k v1 (dget_Some_In _ _ _ G1)) as (v2 & G2 & E2).
      exists v2. split; [exact G2|]. exact (IH (k, v2) (dget_Some_In _ _ _ G2) _ _ E2 E1).
Qed.

(** for dictionaries without repeated keys: same length, and every key of the first in the second *)
Lemma py_eq_dict l m : NoDup (dkeys l) -> NoDup (dkeys m) -> py_eq (VDict l) (VDict m) = dict_eq l m.
Proof.
  intros N1 N2. apply eq_true_iff_eq. rewrite py_eq_dicts. unfold dict_eq, covers. rewrite andb_true_iff, Nat.eqb_eq, forallb_forall.
  assert (Q : (forall x, In x l -> match dget m (fst x) with Some v => py_eq (snd x) v | None => false end = true) <-> covers l m).
  { split.
    - intros H k v I. specialize (H _ I). simpl in H. destruct (dget m k) as [v'|]; [eauto|discriminate].
    - intros H [k v] I. simpl. destruct (H k v I) as (v' & -> & E). exact E. }
  rewrite Q. unfold covers. split.
  - intros [A B]. split; [|exact A].
    assert (L1 : incl (dkeys l) (dkeys m)). { intros k I. apply in_map_iff in I as ([k' v] & <- & I). destruct (A k' v I) as (v' & G & _). apply dget_Some_In in G. now apply (in_map fst) in G. }
    assert (L2 : incl (dkeys m) (dkeys l)). { intros k I. apply in_map_iff in I as ([k' v] & <- & I). destruct (B k' v I) as (v' & G & _). apply dget_Some_In in G. now apply (in_map fst) in G. }
    pose proof (NoDup_incl_length N1 L1) as X. pose proof (NoDup_incl_length N2 L2) as Y. unfold dkeys in X, Y. rewrite !map_length in X, Y. lia.
  - intros [L A]. split; [exact A|]. intros k v' I.
    assert (L1 : incl (dkeys l) (dkeys m)). { intros k0 I0. apply in_map_iff in I0 as ([k' v] & <- & I0). destruct (A k' v I0) as (v0 & G & _). apply dget_Some_In in G. now apply (in_map fst) in G. }
    assert (L2 : incl (dkeys m) (dkeys l)). { apply NoDup_length_incl; [exact N1| |exact L1]. unfold dkeys. rewrite !map_length. lia. }
    assert (J : In k (dkeys l)) by (apply L2; now apply (in_map fst) in I). apply in_map_iff in J as ([k' v] & E & J). simpl in E. subst k'.
    destruct (A k v J) as (v1 & G & E). rewrite (In_dget _ _ _ N2 I) in G. injection G as <-. exists v. split; [now apply In_dget|exact E].
Qed.

(** ** Monad *)
Lemma bind_ok {S A B} (m : M S A) (k : A -> M S B) s s' b :
  bind m k s = (s', Ok b) -> exists s1 a, m s = (s1, Ok a) /\ k a s1 = (s', Ok b).
Proof.
  unfold bind. destruct (m s) as [s1 [a|e]]; [eauto|discriminate].
Qed.

Lemma Forall2_impl {A B} (P Q : A -> B -> Prop) l m : (forall x y, P x y -> Q x y) -> Forall2 P l m -> Forall2 Q l m.
Proof. intros H F. induction F; constructor; auto. Qed.
Lemma Forall2_length' {A B} (P : A -> B -> Prop) l m : Forall2 P l m -> length l = length m.
Proof. intros F. induction F; simpl; congruence. Qed.
