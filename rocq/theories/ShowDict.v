(** * ShowDict: lemmas about Diff.dict(). *)
From Verif Require Export ShowSpec DiffFacts.

Lemma NoDup_join {A} (l m : list A) : NoDup l -> NoDup m -> (forall x, In x l -> ~ In x m) -> NoDup (l ++ m).
Proof.
  induction l as [|a l IH]; intros N1 N2 D; simpl; [exact N2|]. inversion N1; subst. constructor.
  - rewrite in_app_iff. intros [I|I]; [auto|]. apply (D a); [now left|exact I].
  - apply IH; auto. intros x I. apply D. now right.
Qed.
Lemma NoDup_map_inj_in {A B} (f : A -> B) l : NoDup (map f l) -> forall x y, In x l -> In y l -> f x = f y -> x = y.
Proof.
  induction l as [|a l IH]; intros N x y I J E; [destruct I|]. simpl in N. inversion N as [|? ? N1 N2]; subst.
  destruct I as [->|I], J as [->|J]; auto; exfalso; apply N1.
  - rewrite E. now apply in_map.
  - rewrite <- E. now apply in_map.
Qed.
Lemma differs_action x : differs x <-> e_action x <> None.
Proof.
  unfold differs, e_action, attrs_action. destruct (e_src x) as [s|], (e_dst x) as [d|].
  - rewrite <- existsb_differs. destruct (existsb _ _); split; congruence.
  - split; [congruence|auto].
  - split; [congruence|auto].
  - tauto.
Qed.
Lemma has_diffs_iff x : elem_has_diffs x = true <-> differs x \/ exists y, occurs y (e_kids x) /\ differs y.
Proof.
  rewrite elem_has_diffs_spec. split.
  - intros (y & I & A). apply differs_action in A. apply In_elem_all_iff in I as [->|I]; eauto.
  - intros [D|(y & O & D)]; apply differs_action in D.
    + exists x. split; [apply In_elem_all_iff; auto|exact D].
    + exists y. split; [apply In_elem_all_iff; auto|exact D].
Qed.

(** ** What the fold over the children builds *)
Definition step (res : dict (dict pyv)) (x : string * string * bool * pyv) : dict (dict pyv) :=
  match x with (t, n, h, d) => if h : bool then dset res t (dset (group_of res t) n d) else res end.
Lemma step_get l : forall res t n, NoDup (map (fun x : string * string * bool * pyv => fst (fst x)) l) ->
  dget (group_of (fold_left step l res) t) n =
  match find (fun x : string * string * bool * pyv => String.eqb t (fst (fst (fst x))) && String.eqb n (snd (fst (fst x))) && snd (fst x)) l with
  | Some x => Some (snd x)
  | None => dget (group_of res t) n
  end.
Proof.
  induction l as [|[[[t' n'] h] y] l IH]; intros res t n ND; simpl; [reflexivity|].
  inversion ND as [|? ? N1 N2]; subst. rewrite IH by exact N2.
  destruct (String.eqb_spec t t') as [->|NT]; simpl.
  - destruct (String.eqb_spec n n') as [->|NN]; simpl.
    + assert (F : find (fun x : string * string * bool * pyv => String.eqb t' (fst (fst (fst x))) && String.eqb n' (snd (fst (fst x))) && snd (fst x)) l = None).
      { destruct (find _ l) as [[[[t2 n2] h2] y2]|] eqn:E; [|reflexivity]. apply find_some in E as [I E]. simpl in E.
        apply andb_true_iff in E as [E _]. apply andb_true_iff in E as [E1 E2]. apply String.eqb_eq in E1, E2. subst.
        exfalso. apply N1. apply in_map_iff. exists (t2, n2, h2, y2). auto. }
      rewrite F. destruct h; simpl; [|reflexivity]. unfold group_of. rewrite dget_dset_eq. now rewrite dget_dset_eq.
    + destruct (find _ l); [reflexivity|]. destruct h; [|reflexivity]. unfold group_of. rewrite dget_dset_eq.
      rewrite dget_dset_neq; [reflexivity|congruence].
  - destruct (find _ l); [reflexivity|]. destruct h; [|reflexivity]. unfold group_of. rewrite dget_dset_neq; [reflexivity|congruence].
Qed.
Lemma step_keys l : forall res t, In t (dkeys (fold_left step l res)) <-> In t (dkeys res) \/ exists n y, In (t, n, true, y) l.
Proof.
  induction l as [|[[[t' n'] h] y] l IH]; intros res t; simpl.
  - split; [auto|]. intros [H|(? & ? & [])]. exact H.
  - rewrite IH. destruct h.
    + rewrite dkeys_dset. split.
      * intros [H|(n & y' & H)]; [|right; exists n, y'; auto].
        destruct (dmem res t'); [auto|]. apply in_app_iff in H as [H|[<-|[]]]; [auto|]. right. exists n', y. auto.
      * intros [H|(n & y' & [E|H])].
        -- left. destruct (dmem res t'); [auto|apply in_app_iff; auto].
        -- injection E as -> -> ->. left. destruct (dmem res t) eqn:D; [now apply dmem_In|]. apply in_app_iff. right. now left.
        -- right. eauto.
    + split; [intros [H|(n & y' & H)]|intros [H|(n & y' & [E|H])]]; eauto. discriminate.
Qed.
Lemma step_NoDup l : forall res, NoDup (dkeys res) -> NoDup (dkeys (fold_left step l res)).
Proof. induction l as [|[[[t n] h] y] l IH]; intros res ND; simpl; [exact ND|]. apply IH. destruct h; [|exact ND]. now apply NoDup_dset. Qed.

(** ** Siblings *)
Lemma keys_once gs : NoDup (dkeys gs) -> (forall t g, In (t, g) gs -> NoDup (dkeys g)) ->
  (forall t g n x, In (t, g) gs -> In (n, x) g -> e_type x = t /\ e_name x = n) ->
  NoDup (map (fun x => (e_type x, e_name x)) (children gs)).
Proof.
  induction gs as [|[t g] gs IH]; intros N1 N2 F; simpl; [constructor|].
  inversion N1 as [|? ? M1 M2]; subst. unfold children. simpl. fold (children gs). rewrite map_app. apply NoDup_join.
  - assert (E : map (fun x => (e_type x, e_name x)) (dvals g) = map (fun n => (t, n)) (dkeys g)).
    { unfold dvals, dkeys. rewrite !map_map. apply map_ext_in. intros [n x] I. simpl.
      destruct (F t g n x (or_introl eq_refl) I) as [-> ->]. reflexivity. }
    rewrite E. apply FinFun.Injective_map_NoDup; [intros a b H; congruence|]. apply (N2 t g). now left.
  - apply IH; [exact M2|intros t' g' I; apply (N2 t' g'); now right|intros t' g' n x I J; apply (F t' g' n x); [now right|exact J]].
  - intros [t' n'] I1 I2. apply in_map_iff in I1 as (x & E1 & I1). unfold dvals in I1. apply in_map_iff in I1 as ((n1 & x1) & <- & I1).
    destruct (F t g n1 x1 (or_introl eq_refl) I1) as [T1 _]. apply in_map_iff in I2 as (y & E2 & I2). apply In_children in I2 as (t2 & g2 & n2 & G2 & I2).
    destruct (F t2 g2 n2 y (or_intror G2) I2) as [T2 _]. simpl in *. assert (t2 = t) by congruence. subst.
    apply M1. unfold dkeys. apply in_map_iff. exists (e_type x1, g2). split; [reflexivity|congruence].
Qed.

Section Dict.
  Variable ord : order_fn.
  Hypothesis ONCE : yields_once ord.

  Lemma child_dict gs t n y : tree_ok gs ->
    (exists g, dget (groups_dict ord gs) t = Some (PD g) /\ dget g n = Some y) <->
    exists g x, In (t, g) gs /\ In (n, x) g /\ elem_has_diffs x = true /\ y = elem_dict ord x.
  Proof.
    intros OK. inversion OK as [gs' N1 N2 F _]; subst.
    set (f := fun c => (e_type c, e_name c, elem_has_diffs c, elem_dict ord c)).
    set (l := ordered ord f gs).
    assert (L : l = map f (ordered ord (fun e => e) gs)) by apply ordered_map.
    assert (ND : NoDup (map (fun x : string * string * bool * pyv => fst (fst x)) l)).
    { rewrite L, map_map. apply (Permutation_NoDup (l := map (fun x => (e_type x, e_name x)) (children gs))).
      - symmetry. apply (Permutation_map (fun x => (e_type x, e_name x))). now apply ordered_perm.
      - now apply keys_once. }
    assert (IL : forall x, In x (ordered ord (fun e => e) gs) <-> In x (children gs)).
    { intros x. split; intros I; [apply (Permutation_in _ (ordered_perm ord gs ONCE) I)|apply (Permutation_in _ (Permutation_sym (ordered_perm ord gs ONCE)) I)]. }
    assert (G : forall t', dget (groups_dict ord gs) t' = option_map PD (dget (fold_left step l []) t')).
    { intros t'. unfold groups_dict, dict_of_children. fold f. fold l. change (fun (res : dict (dict pyv)) x => match x with (t0, n0, h, d) => if h : bool then dset res t0 (dset (group_of res t0) n0 d) else res end) with step.
      induction (fold_left step l []) as [|[k v] r IH]; simpl; [reflexivity|]. destruct (String.eqb t' k); [reflexivity|exact IH]. }
    rewrite G. pose proof (step_get l [] t n ND) as SG. unfold group_of in SG at 2. simpl in SG. split.
    - intros (g & E & D). destruct (dget (fold_left step l []) t) as [g'|] eqn:E'; [|discriminate]. simpl in E. injection E as ->.
      unfold group_of in SG. rewrite E', D in SG.
      destruct (find _ l) as [[[[t2 n2] h2] y2]|] eqn:FD; [|discriminate]. apply find_some in FD as [I B]. simpl in B, SG.
      apply andb_true_iff in B as [B H2]. apply andb_true_iff in B as [B1 B2]. apply String.eqb_eq in B1, B2. subst t2 n2 h2. injection SG as ->.
      rewrite L in I. apply in_map_iff in I as (x & E & I). unfold f in E. injection E as T N H Y.
      apply IL, In_children in I as (t1 & g1 & n1 & I1 & I2). destruct (F _ _ _ _ I1 I2) as [T1 M1].
      exists g1, x. split; [congruence|]. split; [congruence|]. split; [exact H|now symmetry].
    - intros (g & x & I1 & I2 & H & ->). destruct (F _ _ _ _ I1 I2) as [T1 M1].
      assert (I : In (t, n, true, elem_dict ord x) l).
      { rewrite L. apply in_map_iff. exists x. split; [unfold f; now rewrite T1, M1, H|]. apply IL, In_children. eauto 6. }
      assert (D : dget (group_of (fold_left step l []) t) n = Some (elem_dict ord x)).
      { rewrite SG. destruct (find _ l) as [[[[t2 n2] h2] y2]|] eqn:FD.
        - apply find_some in FD as [J B]. simpl in B. apply andb_true_iff in B as [B H2]. apply andb_true_iff in B as [B1 B2].
          apply String.eqb_eq in B1, B2. subst t2 n2 h2. simpl. f_equal.
          assert (E : (t, n, true, elem_dict ord x) = (t, n, true, y2)); [|congruence].
          apply (NoDup_map_inj_in _ _ ND _ _ I J). reflexivity.
        - exfalso. pose proof (find_none _ _ FD _ I) as B. simpl in B. rewrite !String.eqb_refl in B. discriminate. }
      unfold group_of in D. destruct (dget (fold_left step l []) t) as [g'|] eqn:E'; [|discriminate]. exists g'. split; [reflexivity|exact D].
  Qed.

  Lemma dict_PD gs t y : dget (groups_dict ord gs) t = Some y -> exists g, y = PD g.
  Proof.
    unfold groups_dict, dict_of_children. match goal with |- context [map _ ?l] => induction l as [|[k v] r IH] end; simpl; [discriminate|].
    destruct (String.eqb t k); [|exact IH]. intros E. injection E as <-. eauto.
  Qed.
  Lemma dict_NoDup gs : NoDup (dkeys (groups_dict ord gs)).
  Proof.
    unfold groups_dict, dict_of_children. unfold dkeys. rewrite map_map. simpl.
    apply (step_NoDup (ordered ord (fun c => (e_type c, e_name c, elem_has_diffs c, elem_dict ord c)) gs) []). constructor.
  Qed.
  Lemma dict_keys gs t : In t (dkeys (groups_dict ord gs)) -> exists x, In x (children gs) /\ e_type x = t.
  Proof.
    unfold groups_dict, dict_of_children. unfold dkeys. rewrite map_map. simpl. intros I.
    apply (step_keys (ordered ord (fun c => (e_type c, e_name c, elem_has_diffs c, elem_dict ord c)) gs) []) in I as [[]|(n & y & I)].
    rewrite ordered_map in I. apply in_map_iff in I as (x & E & I). injection E as T _ _ _. exists x. split; [now apply ordered_sub in I|exact T].
  Qed.

  (** ** One element *)
  Definition own (x : elem) : dict pyv :=
    let diffs := e_attrs_diffs x in
    let r0 := match ad_minus diffs with Some m => [("-", pv_dict m)] | None => [] end in
    match ad_plus diffs with Some p => dset r0 "+" (pv_dict p) | None => r0 end.
  Lemma elem_dict_eq x : elem_dict ord x = PD (dupdate (own x) (groups_dict ord (e_kids x))).
  Proof.
    transitivity (PD (if groups_have_diffs (e_kids x) then dupdate (own x) (groups_dict ord (e_kids x)) else own x)); [destruct x; reflexivity|].
    destruct (groups_have_diffs (e_kids x)) eqn:E; [reflexivity|].
    destruct (groups_dict ord (e_kids x)) eqn:D; [reflexivity|]. exfalso.
    assert (groups_have_diffs (e_kids x) = true); [|congruence]. apply (groups_dict_nonempty ord (e_kids x) (yields_once_all _ ONCE)). congruence.
  Qed.
  Lemma dget_own x k : dget (own x) k =
    if String.eqb k "+" then option_map pv_dict (ad_plus (e_attrs_diffs x))
    else if String.eqb k "-" then option_map pv_dict (ad_minus (e_attrs_diffs x)) else None.
  Proof.
    unfold own. destruct (ad_minus (e_attrs_diffs x)) as [m|], (ad_plus (e_attrs_diffs x)) as [p|]; simpl;
      destruct (String.eqb_spec k "+") as [->|N1]; simpl; try reflexivity; destruct (String.eqb_spec k "-"); reflexivity.
  Qed.
  Lemma pget_pv d q : forall v, pget (pv_dict d) q = Some (PV v) <-> exists k, q = [k] /\ dget d k = Some v.
  Proof.
    intros v. unfold pv_dict. assert (G : forall k, dget (map (fun kv : string * val => (fst kv, PV (snd kv))) d) k = option_map PV (dget d k)).
    { intros k. induction d as [|[k0 v0] d IH]; simpl; [reflexivity|]. destruct (String.eqb k k0); [reflexivity|exact IH]. }
    destruct q as [|k [|k2 q]]; simpl; [split; [discriminate|intros (k & E & _); discriminate]| |].
    - rewrite G. destruct (dget d k) as [v'|] eqn:D; simpl; split.
      + intros E. injection E as ->. eauto. + intros (k' & E & D'). injection E as <-. congruence.
      + discriminate. + intros (k' & E & D'). injection E as <-. congruence.
    - rewrite G. destruct (dget d k); simpl; split; try discriminate; intros (k' & E & _); discriminate.
  Qed.
  Lemma plus_iff x p k v : ad_plus (e_attrs_diffs x) = Some p -> (dget p k = Some v <-> gained x k v).
  Proof.
    unfold e_attrs_diffs, gained. destruct (e_src x) as [s|], (e_dst x) as [d|]; try discriminate.
    - destruct (attrs_diffs_spec s d) as (p' & m & E & _ & _ & H). rewrite E. simpl. intros P. injection P as <-. destruct (H k) as [H1 H2]. split.
      + intros D. exists s. split; [reflexivity|].
        assert (SU : shared_unequal s d k). { destruct (dget s k) as [a|] eqn:A, (dget d k) as [b|] eqn:B; try (exfalso; destruct H2 as [H2 _]; [intros (? & ? & ? & ? & _); congruence|congruence]).
          destruct (py_eq a b) eqn:Q; [|exists a, b; auto]. exfalso. destruct H2 as [H2 _]; [|congruence]. intros (a' & b' & A' & B' & Q'). congruence. }
        destruct (H1 SU) as [E1 _]. destruct SU as (a & b & A & B & Q). split; [congruence|]. exists b. split; [exact B|]. congruence.
      + intros (s' & ES & D & v' & DD & Q). injection ES as <-. destruct H1 as [H1 _]; [exists v, v'; auto|]. congruence.
    - intros P. injection P as <-. rewrite dget_pick. split.
      + destruct (smem k (dkeys s)); [|discriminate]. intros D. eauto.
      + intros (s' & ES & D & _). injection ES as <-. assert (smem k (dkeys s) = true) as ->; [|exact D]. apply smem_In. eapply dget_Some_key; eauto.
  Qed.
  Lemma minus_iff x m k v : ad_minus (e_attrs_diffs x) = Some m -> (dget m k = Some v <-> lost x k v).
  Proof.
    unfold e_attrs_diffs, lost. destruct (e_src x) as [s|], (e_dst x) as [d|]; try discriminate.
    - destruct (attrs_diffs_spec s d) as (p' & m' & E & _ & _ & H). rewrite E. simpl. intros P. injection P as <-. destruct (H k) as [H1 H2]. split.
      + intros D. exists d. split; [reflexivity|].
        assert (SU : shared_unequal s d k). { destruct (dget s k) as [a|] eqn:A, (dget d k) as [b|] eqn:B; try (exfalso; destruct H2 as [_ H2]; [intros (? & ? & ? & ? & _); congruence|congruence]).
          destruct (py_eq a b) eqn:Q; [|exists a, b; auto]. exfalso. destruct H2 as [_ H2]; [|congruence]. intros (a' & b' & A' & B' & Q'). congruence. }
        destruct (H1 SU) as [_ E1]. destruct SU as (a & b & A & B & Q). split; [congruence|]. exists a. split; [exact A|]. congruence.
      + intros (s' & ES & D & v' & DD & Q). injection ES as <-. destruct H1 as [_ H1]; [exists v', v; auto|]. congruence.
    - intros P. injection P as <-. rewrite dget_pick. split.
      + destruct (smem k (dkeys d)); [|discriminate]. intros D. eauto.
      + intros (s' & ES & D & _). injection ES as <-. assert (smem k (dkeys d) = true) as ->; [|exact D]. apply smem_In. eapply dget_Some_key; eauto.
  Qed.
  Lemma plus_some x : ad_plus (e_attrs_diffs x) = None <-> e_src x = None.
  Proof. unfold e_attrs_diffs. destruct (e_src x), (e_dst x); simpl; split; congruence. Qed.
  Lemma minus_some x : ad_minus (e_attrs_diffs x) = None <-> e_dst x = None.
  Proof. unfold e_attrs_diffs. destruct (e_src x), (e_dst x); simpl; split; congruence. Qed.

  (** ** Paths *)
  Lemma elem_get x k : signless (e_kids x) -> dget (dupdate (own x) (groups_dict ord (e_kids x))) k =
    if String.eqb k "+" then option_map pv_dict (ad_plus (e_attrs_diffs x))
    else if String.eqb k "-" then option_map pv_dict (ad_minus (e_attrs_diffs x))
    else dget (groups_dict ord (e_kids x)) k.
  Proof.
    intros SL. rewrite dget_dupdate by apply dict_NoDup. rewrite dget_own.
    assert (N : k = "+" \/ k = "-" -> dget (groups_dict ord (e_kids x)) k = None).
    { intros K. apply dget_None. intros I. apply dict_keys in I as (y & I & T). apply In_children in I as (t & g & n & I1 & I2).
      destruct (SL y (occ_here y _ t g n I1 I2)). destruct K; congruence. }
    destruct (String.eqb_spec k "+") as [->|N1]; [rewrite N by auto; reflexivity|].
    destruct (String.eqb_spec k "-") as [->|N2]; [rewrite N by auto; reflexivity|]. destruct (dget (groups_dict ord (e_kids x)) k); reflexivity.
  Qed.
  Lemma path_get gs t n q z : tree_ok gs -> pget (PD (groups_dict ord gs)) (t :: n :: q) = Some z <->
    exists g x, In (t, g) gs /\ In (n, x) g /\ elem_has_diffs x = true /\ pget (elem_dict ord x) q = Some z.
  Proof.
    intros OK. simpl. split.
    - destruct (dget (groups_dict ord gs) t) as [y|] eqn:D; [|discriminate]. destruct (dict_PD _ _ _ D) as (g & ->).
      destruct (dget g n) as [y|] eqn:D'; [|discriminate]. intros E. destruct (proj1 (child_dict gs t n y OK)) as (g' & x & I1 & I2 & H & ->); eauto 8.
    - intros (g & x & I1 & I2 & H & E). destruct (proj2 (child_dict gs t n (elem_dict ord x) OK)) as (g' & D & D'); [eauto 6|].
      now rewrite D, D'.
  Qed.
  Lemma ok_kids gs t g n x : tree_ok gs -> In (t, g) gs -> In (n, x) g -> tree_ok (e_kids x).
  Proof. intros OK. inversion OK; subst. eauto. Qed.
  Lemma ok_at gs t g n x g' x' : tree_ok gs -> In (t, g) gs -> In (n, x) g -> In (t, g') gs -> In (n, x') g' -> x' = x.
  Proof.
    intros OK. inversion OK as [gs' N1 N2 _ _]; subst. intros I1 I2 J1 J2.
    assert (g' = g). { apply (In_dget _ _ _ N1) in I1. apply (In_dget _ _ _ N1) in J1. congruence. } subst.
    pose proof (N2 t g I1) as N. apply (In_dget _ _ _ N) in I2. apply (In_dget _ _ _ N) in J2. congruence.
  Qed.
  Lemma signless_kids gs t g n x : signless gs -> In (t, g) gs -> In (n, x) g -> signless (e_kids x).
  Proof. intros SL I1 I2 y O. apply SL. eapply occ_below; eauto. Qed.
  Lemma has_below x y : occurs y (e_kids x) -> elem_has_diffs y = true -> elem_has_diffs x = true.
  Proof.
    intros O H. apply has_diffs_iff in H. apply has_diffs_iff. right. destruct H as [H|(z & OZ & H)]; [eauto|]. exists z. split; [|exact H].
    clear H. induction O as [gs t g n I1 I2|gs t g n p I1 I2 O IH]; [eapply occ_below; eauto|eapply occ_below; eauto].
  Qed.
  Lemma path_occurs gs p x : at_path gs p x -> occurs x gs.
  Proof. induction 1; [eapply occ_here|eapply occ_below]; eauto. Qed.

  Lemma dict_values gs q v : tree_ok gs -> signless gs ->
    pget (PD (groups_dict ord gs)) q = Some (PV v) <->
    exists p x k, at_path gs p x /\ ((q = p ++ ["+"; k] /\ gained x k v) \/ (q = p ++ ["-"; k] /\ lost x k v)).
  Proof.
    revert gs. assert (W : forall m gs q, length q <= m -> tree_ok gs -> signless gs -> pget (PD (groups_dict ord gs)) q = Some (PV v) <->
      exists p x k, at_path gs p x /\ ((q = p ++ ["+"; k] /\ gained x k v) \/ (q = p ++ ["-"; k] /\ lost x k v))); [|intros gs; apply (W (length q)); lia].
    clear q. induction m as [|m IH]; intros gs q L OK SL.
    { destruct q; simpl in L; [|lia]. split; [discriminate|]. intros (p & x & k & _ & [[E _]|[E _]]); destruct p; discriminate. }
    destruct q as [|t [|n q]].
    - split; [discriminate|]. intros (p & x & k & _ & [[E _]|[E _]]); destruct p; discriminate.
    - split.
      + simpl. destruct (dget (groups_dict ord gs) t) as [y|] eqn:D; [|discriminate]. destruct (dict_PD _ _ _ D) as (g & ->). discriminate.
      + intros (p & x & k & P & [[E _]|[E _]]); destruct P as [? ? ? ? ? ? ?|? ? ? ? ? ? ? ? ? ?]; discriminate.
    - rewrite (path_get gs t n q _ OK). split.
      + intros (g & x & I1 & I2 & H & E). rewrite elem_dict_eq in E. destruct q as [|k q]; [discriminate|]. cbn [pget] in E.
        rewrite (elem_get x k (signless_kids _ _ _ _ _ SL I1 I2)) in E. destruct (String.eqb_spec k "+") as [->|N1].
        { destruct (ad_plus (e_attrs_diffs x)) as [p|] eqn:P; [|discriminate]. cbn [option_map] in E. apply pget_pv in E as (k & -> & D).
          exists [t; n], x, k. split; [econstructor; eauto|]. left. split; [reflexivity|]. now apply (plus_iff x p). }
        destruct (String.eqb_spec k "-") as [->|N2].
        { destruct (ad_minus (e_attrs_diffs x)) as [p|] eqn:P; [|discriminate]. cbn [option_map] in E. apply pget_pv in E as (k & -> & D).
          exists [t; n], x, k. split; [econstructor; eauto|]. right. split; [reflexivity|]. now apply (minus_iff x p). }
        assert (E' : pget (PD (groups_dict ord (e_kids x))) (k :: q) = Some (PV v)) by exact E.
        apply (IH (e_kids x) (k :: q)) in E' as (p & y & k' & P & R).
        * exists (t :: n :: p), y, k'. split; [econstructor; eauto|]. destruct R as [[-> R]|[-> R]]; [left|right]; auto.
        * simpl in *. lia.
        * eapply ok_kids; eauto.
        * eapply signless_kids; eauto.
      + intros (p & x & k & P & R). destruct P as [gs t' g n' x I1 I2|gs t' g n' y p x I1 I2 P].
        * assert (t' = t /\ n' = n) as [-> ->]. { destruct R as [[R _]|[R _]]; injection R; auto. }
          exists g, x. split; [exact I1|]. split; [exact I2|]. split.
          -- apply has_diffs_iff. left. unfold differs. destruct R as [[_ (s & S1 & S2 & S3)]|[_ (s & S1 & S2 & S3)]]; rewrite S1.
             ++ destruct (e_dst x) as [d|]; [|exact I]. destruct S3 as (v' & D & Q). exists k, v, v'. auto.
             ++ destruct (e_src x) as [d|]; [|exact I]. destruct S3 as (v' & D & Q). exists k, v', v. auto.
          -- rewrite elem_dict_eq. assert (SK := signless_kids _ _ _ _ _ SL I1 I2). destruct R as [[R G]|[R G]]; injection R as R; subst q; simpl pget; rewrite (elem_get x _ SK); simpl.
             ++ destruct (ad_plus (e_attrs_diffs x)) as [p|] eqn:AP; [|apply plus_some in AP; destruct G as (? & ? & _); congruence].
                apply (plus_iff x p k v AP) in G. simpl. apply (proj2 (pget_pv p [k] v)). eauto.
             ++ destruct (ad_minus (e_attrs_diffs x)) as [p|] eqn:AP; [|apply minus_some in AP; destruct G as (? & ? & _); congruence].
                apply (minus_iff x p k v AP) in G. simpl. apply (proj2 (pget_pv p [k] v)). eauto.
        * assert (t' = t /\ n' = n) as [-> ->]. { destruct R as [[R _]|[R _]]; injection R; auto. }
          assert (OK' := ok_kids _ _ _ _ _ OK I1 I2). assert (SK := signless_kids _ _ _ _ _ SL I1 I2).
          assert (Q : pget (PD (groups_dict ord (e_kids y))) q = Some (PV v)).
          { apply IH; auto; [simpl in L; lia|]. exists p, x, k. split; [exact P|]. destruct R as [[R G]|[R G]]; injection R as R; auto. }
          exists g, y. split; [exact I1|]. split; [exact I2|]. split.
          -- apply (has_below y x); [eapply path_occurs; eauto|]. apply has_diffs_iff. left. unfold differs. destruct R as [[_ (s & S1 & S2 & S3)]|[_ (s & S1 & S2 & S3)]]; rewrite S1.
             ++ destruct (e_dst x) as [d|]; [|exact I]. destruct S3 as (v' & D & Q'). exists k, v, v'. auto.
             ++ destruct (e_src x) as [d|]; [|exact I]. destruct S3 as (v' & D & Q'). exists k, v', v. auto.
          -- rewrite elem_dict_eq. destruct q as [|k' q]; [discriminate|]. cbn [pget] in *. rewrite (elem_get y k' SK).
             destruct P as [? t1 ? ? ? J1 J2|? t1 ? ? z ? ? J1 J2 ?].
             ++ assert (k' = t1) as ->. { destruct R as [[R _]|[R _]]; injection R; auto. }
                inversion OK' as [? ? ? F _]; subst. destruct (F _ _ _ _ J1 J2) as [T _]. destruct (SK _ (occ_here _ _ _ _ _ J1 J2)) as [A B]. rewrite T in A, B.
                destruct (String.eqb_spec t1 "+"); [congruence|]. destruct (String.eqb_spec t1 "-"); [congruence|]. exact Q.
             ++ assert (k' = t1) as ->. { destruct R as [[R _]|[R _]]; injection R; auto. }
                inversion OK' as [? ? ? F _]; subst. destruct (F _ _ _ _ J1 J2) as [T _]. destruct (SK _ (occ_here _ _ _ _ _ J1 J2)) as [A B]. rewrite T in A, B.
                destruct (String.eqb_spec t1 "+"); [congruence|]. destruct (String.eqb_spec t1 "-"); [congruence|]. exact Q.
  Qed.

  Lemma path_head gs p x : tree_ok gs -> signless gs -> at_path gs p x -> exists t q, p = t :: q /\ t <> "+" /\ t <> "-".
  Proof.
    intros OK SL P. inversion OK as [? _ _ F _]; subst. inversion P as [? t g n y I1 I2|? t g n y q z I1 I2 P']; subst;
      destruct (F _ _ _ _ I1 I2) as [T _]; destruct (SL _ (occ_here _ _ _ _ _ I1 I2)) as [A B]; rewrite T in A, B; eauto.
  Qed.
  Lemma dict_element gs p x : tree_ok gs -> signless gs -> at_path gs p x ->
    (elem_has_diffs x = true -> pget (PD (groups_dict ord gs)) p = Some (elem_dict ord x)) /\
    (elem_has_diffs x = false -> pget (PD (groups_dict ord gs)) p = None).
  Proof.
    intros OK SL P. induction P as [gs t g n x I1 I2|gs t g n y p x I1 I2 P IH].
    - split; intros H.
      + apply (path_get gs t n []); auto. exists g, x. auto.
      + destruct (pget (PD (groups_dict ord gs)) [t; n]) as [z|] eqn:E; [|reflexivity]. apply (path_get gs t n []) in E as (g' & x' & J1 & J2 & H' & _); [|exact OK].
        pose proof (ok_at gs t g n x g' x' OK I1 I2 J1 J2). congruence.
    - assert (OK' := ok_kids _ _ _ _ _ OK I1 I2). assert (SK := signless_kids _ _ _ _ _ SL I1 I2). destruct (IH OK' SK) as [IH1 IH2].
      assert (STEP : pget (elem_dict ord y) p = pget (PD (groups_dict ord (e_kids y))) p).
      { rewrite elem_dict_eq. destruct (path_head _ _ _ OK' SK P) as (t1 & q & -> & A & B). cbn [pget]. rewrite (elem_get y t1 SK).
        destruct (String.eqb_spec t1 "+"); [congruence|]. destruct (String.eqb_spec t1 "-"); [congruence|]. reflexivity. }
      split; intros H.
      + apply (path_get gs t n p); auto. exists g, y. split; [exact I1|]. split; [exact I2|]. split; [apply (has_below y x); [eapply path_occurs; eauto|exact H]|].
        rewrite STEP. auto.
      + destruct (pget (PD (groups_dict ord gs)) (t :: n :: p)) as [z|] eqn:E; [|reflexivity]. apply (path_get gs t n p) in E as (g' & y' & J1 & J2 & H' & E); [|exact OK].
        pose proof (ok_at gs t g n y g' y' OK I1 I2 J1 J2). subst y'. rewrite STEP, (IH2 H) in E. discriminate.
  Qed.
  Lemma pget_app x p q : pget x (p ++ q) = match pget x p with Some y => pget y q | None => None end.
  Proof. revert x. induction p as [|k p IH]; intros x; [reflexivity|]. destruct x as [v|d]; simpl; [reflexivity|]. destruct (dget d k); [apply IH|reflexivity]. Qed.
End Dict.

Lemma dict_elements d p x : yields_once (dc_order (d_class d)) -> tree_ok (d_groups d) -> signless (d_groups d) -> at_path (d_groups d) p x ->
  let shown q := pget (PD (diff_dict d)) q <> None in
  (shown p <-> differs x \/ exists y, occurs y (e_kids x) /\ differs y) /\
  (shown p -> (shown (p ++ ["+"]) <-> e_src x <> None) /\ (shown (p ++ ["-"]) <-> e_dst x <> None)).
Proof.
  intros YO OK SL P shown. unfold shown, diff_dict. set (ord := dc_order (d_class d)) in *. destruct (dict_element ord YO _ p x OK SL P) as [H1 H2].
  assert (SK : signless (e_kids x)).
  { clear - P SL. induction P as [gs t g n x I1 I2|gs t g n y p x I1 I2 P IH]; [eapply signless_kids; eauto|]. apply IH. eapply signless_kids; eauto. }
  split.
  - rewrite <- has_diffs_iff. destruct (elem_has_diffs x); [rewrite H1 by auto|rewrite H2 by auto]; split; congruence.
  - intros SH. destruct (elem_has_diffs x); [|rewrite H2 in SH by auto; congruence].
    rewrite !pget_app, !H1 by auto. rewrite (elem_dict_eq ord YO). cbn [pget]. rewrite !(elem_get ord x _ SK). simpl.
    pose proof (plus_some x) as A. pose proof (minus_some x) as B.
    destruct (ad_plus (e_attrs_diffs x)), (ad_minus (e_attrs_diffs x)); simpl; split; split; intros; try congruence; try (intros E; apply A in E; congruence); try (intros E; apply B in E; congruence); try (exfalso; apply H; now apply A); try (exfalso; apply H; now apply B).
Qed.
