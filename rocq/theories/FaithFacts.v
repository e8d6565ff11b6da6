(** * FaithFacts: the calculation returns exactly the faithful elements. *)
From Verif Require Export PureDiffer.

Lemma flat_map_ext_in_r {A B} (f g : A -> list B) l : (forall x, In x l -> f x = g x) -> flat_map f l = flat_map g l.
Proof. intros H. rewrite !flat_map_concat_map. f_equal. now apply map_ext_in. Qed.

(** ** keep_first *)
Lemma In_keep_first l x : In x (keep_first l) <-> In x l.
Proof.
  induction l as [|y l IH]; simpl; [tauto|]. rewrite filter_In, IH.
  destruct (String.eqb_spec x y) as [->|N]; simpl; intuition congruence.
Qed.
Lemma NoDup_keep_first l : NoDup (keep_first l).
Proof.
  induction l as [|y l IH]; simpl; constructor.
  - rewrite filter_In, String.eqb_refl. intros [_ H]. discriminate.
  - now apply NoDup_filter.
Qed.
Lemma filter_comm {A} (p q : A -> bool) l : filter p (filter q l) = filter q (filter p l).
Proof.
  induction l as [|x l IH]; simpl; [reflexivity|].
  destruct (q x) eqn:Q; destruct (p x) eqn:P; simpl; rewrite ?Q, ?P; congruence.
Qed.
Lemma filter_and {A} (p q : A -> bool) l : filter p (filter q l) = filter (fun x => q x && p x) l.
Proof. induction l as [|x l IH]; simpl; [reflexivity|]. destruct (q x); simpl; [destruct (p x)|]; congruence. Qed.
Lemma filter_all {A} (p : A -> bool) l : (forall x, In x l -> p x = true) -> filter p l = l.
Proof.
  induction l as [|x l IH]; intros H; simpl; [reflexivity|]. rewrite (H x (or_introl eq_refl)), IH; [reflexivity|].
  intros y I. apply H. now right.
Qed.
Lemma filter_app' {A} (p : A -> bool) l m : filter p (l ++ m) = filter p l ++ filter p m.
Proof. apply filter_app. Qed.
Lemma keep_first_app l m : keep_first (l ++ m) = keep_first l ++ filter (fun x => negb (smem x l)) (keep_first m).
Proof.
  induction l as [|y l IH]; simpl.
  - symmetry. apply filter_all. reflexivity.
  - rewrite IH, filter_app, filter_and. f_equal. f_equal. apply filter_ext. intros x.
    destruct (String.eqb x y); simpl; [now rewrite andb_false_r|now rewrite andb_true_r].
Qed.
Lemma smem_ext l m x : (forall x, In x l <-> In x m) -> smem x l = smem x m.
Proof.
  intros H. destruct (smem x l) eqn:A; symmetry.
  - apply smem_In, H, smem_In, A.
  - apply smem_false. intros I. apply H in I. apply smem_In in I. congruence.
Qed.
Lemma keep_first_id l : NoDup l -> keep_first l = l.
Proof.
  induction 1 as [|x l N ND IH]; simpl; [reflexivity|]. rewrite IH. f_equal. apply filter_all. intros y I.
  destruct (String.eqb_spec y x); [congruence|reflexivity].
Qed.
Lemma keep_first_idem l m : keep_first (keep_first l ++ keep_first m) = keep_first (l ++ m).
Proof.
  rewrite !keep_first_app, !(keep_first_id (keep_first _)) by apply NoDup_keep_first. f_equal.
  apply filter_ext. intros x. f_equal. apply smem_ext. intros y. apply In_keep_first.
Qed.

(** ** with_uid and index_by_uid *)
Lemma with_uid_nil u : with_uid u [] = None.
Proof. reflexivity. Qed.
Lemma find_app {A} (p : A -> bool) l m : find p (l ++ m) = match find p l with Some x => Some x | None => find p m end.
Proof. induction l as [|x l IH]; simpl; [reflexivity|]. destruct (p x); auto. Qed.
Lemma with_uid_cons u o l : with_uid u (o :: l) =
  match with_uid u l with Some x => Some x | None => if has_uid u o then Some o else None end.
Proof.
  unfold with_uid. simpl. rewrite find_app. destruct (find (has_uid u) (rev l)); [reflexivity|].
  simpl. destruct (has_uid u o); reflexivity.
Qed.
Lemma with_uid_Some u l o : with_uid u l = Some o -> In o l /\ get_unique_id o = Ok u.
Proof.
  unfold with_uid. intros H. apply find_some in H as [I H]. apply in_rev in I. split; [exact I|].
  unfold has_uid in H. destruct (get_unique_id o) as [u'|]; [|discriminate]. apply String.eqb_eq in H. congruence.
Qed.
Lemma with_uid_None u l us : map get_unique_id l = map Ok us -> with_uid u l = None <-> ~ In u us.
Proof.
  revert us. induction l as [|o l IH]; intros [|v us] E; try discriminate; [simpl; intuition|].
  simpl in E. injection E as E1 E2. rewrite with_uid_cons. specialize (IH us E2).
  unfold has_uid. rewrite E1. simpl. destruct (with_uid u l) as [x|].
  - split; [discriminate|]. intros H. exfalso. assert (X : ~ In u us) by tauto. apply IH in X. discriminate.
  - destruct (String.eqb_spec u v) as [->|N].
    + split; [discriminate|]. intros H. exfalso. apply H. now left.
    + split; [|reflexivity]. intros _ [H|H]; [congruence|]. apply IH in H; [exact H|reflexivity].
Qed.
Lemma with_uid_In u l us : map get_unique_id l = map Ok us -> In u us -> exists o, with_uid u l = Some o.
Proof.
  intros E I. destruct (with_uid u l) eqn:W; [eauto|]. apply (with_uid_None u l us E) in W. contradiction.
Qed.

Lemma index_ok ss : forall us acc, map get_unique_id ss = map Ok us ->
  exists ds, index_by_uid ss acc = Ok ds /\
    dkeys ds = dkeys acc ++ filter (fun u => negb (smem u (dkeys acc))) (keep_first us) /\
    forall u, dget ds u = match with_uid u ss with Some o => Some o | None => dget acc u end.
Proof.
  induction ss as [|o ss IH]; intros [|v us] acc E; try discriminate; simpl in E.
  - exists acc. split; [reflexivity|]. split; [now rewrite app_nil_r|reflexivity].
  - injection E as E1 E2. simpl. rewrite E1. simpl.
    destruct (IH us (dset acc v o) E2) as (ds & X & K & G). exists ds. split; [exact X|]. split.
    + rewrite K, dkeys_dset. destruct (dmem acc v) eqn:D.
      * assert (I : smem v (dkeys acc) = true) by (apply smem_In; now apply dmem_In). rewrite I. simpl.
        f_equal. rewrite filter_and. apply filter_ext. intros x. destruct (String.eqb_spec x v) as [->|]; simpl; [now rewrite I|reflexivity].
      * assert (I : smem v (dkeys acc) = false).
        { apply smem_false. intros I. apply dmem_In in I. congruence. }
        rewrite I. simpl. rewrite <- app_assoc. simpl. do 2 f_equal. rewrite filter_and. apply filter_ext. intros x.
        unfold smem. rewrite existsb_app. simpl. rewrite orb_false_r, negb_orb. apply andb_comm.
    + intros u. rewrite G, with_uid_cons. destruct (with_uid u ss); [reflexivity|]. rewrite dget_dset.
      unfold has_uid. rewrite E1. destruct (String.eqb u v); reflexivity.
Qed.
Lemma index_inv ss : forall acc ds, index_by_uid ss acc = Ok ds -> exists us, map get_unique_id ss = map Ok us.
Proof.
  induction ss as [|o ss IH]; intros acc ds E; [now exists []|]. simpl in E.
  destruct (get_unique_id o) as [u|] eqn:U; [|discriminate]. destruct (IH _ _ E) as [us H].
  exists (u :: us). simpl. now rewrite U, H.
Qed.
Lemma index_spec ss us ds : map get_unique_id ss = map Ok us -> index_by_uid ss [] = Ok ds ->
  dkeys ds = keep_first us /\ forall u, dget ds u = with_uid u ss.
Proof.
  intros E X. destruct (index_ok ss us [] E) as (ds' & X' & K & G). rewrite X in X'. injection X' as <-.
  split.
  - rewrite K. simpl. apply filter_all. reflexivity.
  - intros u. rewrite G. now destruct (with_uid u ss).
Qed.

(** ** pair_up *)
Lemma pairs_fold {A} (g : string -> A) l : forall acc, NoDup acc ->
  fold_left (fun c u => dset c u (g u)) l (map (fun u => (u, g u)) acc) =
  map (fun u => (u, g u)) (acc ++ filter (fun u => negb (smem u acc)) (keep_first l)).
Proof.
  induction l as [|x l IH]; intros acc ND; simpl; [now rewrite app_nil_r|].
  assert (K : dkeys (map (fun u => (u, g u)) acc) = acc) by (unfold dkeys; rewrite map_map; apply map_id).
  destruct (smem x acc) eqn:M.
  - assert (G : dget (map (fun u => (u, g u)) acc) x = Some (g x)).
    { apply In_dget; [now rewrite K|]. apply in_map_iff. exists x. split; [reflexivity|]. now apply smem_In. }
    rewrite (dset_same _ _ _ G), IH by exact ND. simpl. do 2 f_equal. rewrite filter_and. apply filter_ext. intros y.
    destruct (String.eqb_spec y x) as [->|]; simpl; [now rewrite M|reflexivity].
  - assert (G : dget (map (fun u => (u, g u)) acc) x = None).
    { apply dget_None. rewrite K. now apply smem_false. }
    rewrite (dset_absent _ _ _ G). change [(x, g x)] with (map (fun u => (u, g u)) [x]). rewrite <- map_app, IH.
    + rewrite <- app_assoc. simpl. do 3 f_equal. rewrite filter_and. apply filter_ext. intros y.
      unfold smem. rewrite existsb_app. simpl. rewrite orb_false_r, negb_orb. apply andb_comm.
    + apply NoDup_snoc'; [exact ND|now apply smem_false].
Qed.
Lemma pair_up_eq ds dd : pair_up ds dd = map (fun u => (u, (dget ds u, dget dd u))) (keep_first (dkeys ds ++ dkeys dd)).
Proof.
  unfold pair_up. pose proof (pairs_fold (fun u => (dget ds u, dget dd u)) (dkeys ds) [] (NoDup_nil _)) as E1. simpl in E1. rewrite E1.
  rewrite (filter_all _ (keep_first (dkeys ds))) by reflexivity.
  rewrite pairs_fold by apply NoDup_keep_first. f_equal. rewrite keep_first_app. f_equal. apply filter_ext.
  intros x. f_equal. apply smem_ext. intros y. apply In_keep_first.
Qed.
Lemma pair_up_spec ss dd us vs ds de :
  map get_unique_id ss = map Ok us -> map get_unique_id dd = map Ok vs ->
  index_by_uid ss [] = Ok ds -> index_by_uid dd [] = Ok de ->
  pair_up ds de = map (fun u => (u, (with_uid u ss, with_uid u dd))) (keep_first (us ++ vs)).
Proof.
  intros E1 E2 X1 X2. destruct (index_spec _ _ _ E1 X1) as [K1 G1]. destruct (index_spec _ _ _ E2 X2) as [K2 G2].
  rewrite pair_up_eq, K1, K2, keep_first_idem. apply map_ext. intros u. now rewrite G1, G2.
Qed.

(** ** validation *)
Lemma validate_pair_ok s d : validate_pair (Some s, Some d) = Ok tt <-> corresponding s d.
Proof.
  unfold validate_pair, corresponding. destruct (String.eqb_spec (get_type s) (get_type d)) as [E|N]; simpl; [|split; [discriminate|tauto]].
  destruct (get_shortname s) as [ns|] eqn:S; simpl; [|split; [discriminate|intros (_ & (n & A & _) & _); discriminate]].
  destruct (get_shortname d) as [nd|] eqn:D; simpl; [|split; [discriminate|intros (_ & (n & _ & A) & _); discriminate]].
  destruct (String.eqb_spec ns nd) as [->|N]; simpl.
  - destruct (dict_eq (get_identifiers s) (get_identifiers d)); simpl; split; try discriminate; try tauto.
    + intros _. repeat split; auto. exists nd. auto.
    + intros (_ & _ & A). discriminate.
  - split; [discriminate|]. intros (_ & (n & A & B) & _). congruence.
Qed.
Lemma validate_pairs_ok l : validate_pairs l = Ok tt <-> forall s d, In (Some s, Some d) l -> corresponding s d.
Proof.
  induction l as [|p l IH]; simpl; [tauto|]. destruct (validate_pair p) as [[]|e] eqn:V; simpl.
  - rewrite IH. split; [|intros H s d I; apply H; auto]. intros H s d [->|I]; [|auto]. now apply validate_pair_ok.
  - split; [discriminate|]. intros H. exfalso. destruct p as [[s|] [d|]]; try discriminate.
    specialize (H s d (or_introl eq_refl)). apply validate_pair_ok in H. congruence.
Qed.

(** ** flags *)
Lemma land_pow2 (f k : N) : N.land f (2 ^ k) = if N.testbit f k then (2 ^ k)%N else 0%N.
Proof.
  apply N.bits_inj. intros m. rewrite N.land_spec, N.pow2_bits_eqb.
  destruct (N.eqb_spec k m) as [->|N].
  - destruct (N.testbit f m); simpl; [now rewrite N.pow2_bits_true|reflexivity].
  - rewrite andb_false_r. destruct (N.testbit f k); [now rewrite N.pow2_bits_false|now rewrite N.bits_0].
Qed.
Lemma has_flag_pow2 f k : has_flag f (2 ^ k) = N.testbit f k.
Proof.
  unfold has_flag. rewrite land_pow2. destruct (N.testbit f k); [|reflexivity].
  destruct (N.eqb_spec (2 ^ k) 0) as [E|]; [|reflexivity]. exfalso. now apply (N.pow_nonzero 2 k).
Qed.
Lemma skip_pair_spec flags so do : skip_pair flags so do = true <-> suppressed flags so do.
Proof.
  unfold skip_pair, suppressed.
  change SF_SKIP_UNMATCHED_SRC with (2 ^ 1)%N. change MF_SKIP_UNMATCHED_SRC with (2 ^ 2)%N.
  change SF_SKIP_UNMATCHED_DST with (2 ^ 2)%N. change MF_SKIP_UNMATCHED_DST with (2 ^ 3)%N.
  change MF_IGNORE with (2 ^ 0)%N.
  destruct so as [s|], do as [d|]; rewrite ?has_flag_pow2, ?orb_true_iff; intuition discriminate.
Qed.

(** ** the writer *)
Lemma wbind_ok {A B} (m : W A) (k : A -> W B) ks b : wbind m k = (ks, Ok b) ->
  exists k1 a k2, m = (k1, Ok a) /\ k a = (k2, Ok b) /\ ks = k1 ++ k2.
Proof.
  unfold wbind. destruct m as [k1 [a|e]]; simpl; [|discriminate]. destruct (k a) as [k2 r] eqn:E; simpl.
  intros H. injection H as <- ->. exists k1, a, k2. auto.
Qed.
Lemma wbind_intro {A B} (m : W A) (k : A -> W B) k1 a k2 b : m = (k1, Ok a) -> k a = (k2, Ok b) ->
  wbind m k = (k1 ++ k2, Ok b).
Proof. intros -> E. unfold wbind. simpl. now rewrite E. Qed.
Lemma wlift_ok {A} (r : result A) ks a : wlift r = (ks, Ok a) -> ks = [] /\ r = Ok a.
Proof. unfold wlift. intros H. now injection H. Qed.
Lemma list_sum_app' l m : list_sum (l ++ m) = list_sum l + list_sum m.
Proof. apply list_sum_app. Qed.

(** the loop counting one-sided children *)
Lemma one_sided_ok o (other : dict string) : forall (mp : dict string) ks,
  wforM mp (fun tf : string * string => if dmem other (fst tf) then wret tt else wbind (wlift (kids_len o (snd tf))) wtick) = (ks, Ok tt) <->
  exists ls, Forall2 (fun tf l => dget (o_kids o) (snd tf) = Some l) (filter (fun tf => negb (dmem other (fst tf))) mp) ls /\
    ks = map (@length string) ls.
Proof.
  induction mp as [|[t f] mp IH]; intros ks; cbn [wforM filter fst snd].
  - split.
    + intros H. injection H as <-. exists []. split; [constructor|reflexivity].
    + intros (ls & F & ->). inversion F; subst. reflexivity.
  - destruct (dmem other t); cbn [negb].
    + rewrite <- IH. unfold wbind, wret. simpl. destruct (wforM mp _) as [k r]. simpl. reflexivity.
    + unfold kids_len, getattr_kids. destruct (dget (o_kids o) f) as [l|] eqn:G; cbn [rbind].
      * split.
        -- intros H. apply wbind_ok in H as (k1 & [] & k2 & H1 & H2 & ->). apply IH in H2 as (ls & F & ->).
           unfold wbind, wlift, wtick in H1. simpl in H1. injection H1 as <-. exists (l :: ls). split; [now constructor|reflexivity].
        -- intros (ls & F & ->). inversion F as [|? l' ? ls' F1 F2]; subst. simpl in F1. rewrite G in F1. injection F1 as <-.
           assert (X := proj2 (IH (map (@length string) ls')) (ex_intro _ ls' (conj F2 eq_refl))).
           apply (wbind_intro _ _ [length l] tt _ tt); [reflexivity|exact X].
      * split; [discriminate|]. intros (ls & F & _). inversion F as [|? l' ? ls' F1 F2]; subst. simpl in F1. congruence.
Qed.
Lemma child_types_ok so do mapping ks : pchildren_mapping so do = (ks, Ok mapping) -> child_types so do mapping (list_sum ks).
Proof.
  unfold pchildren_mapping, child_types. destruct so as [s|], do as [d|]; try (intros H; injection H as <- <-; split; reflexivity); [|discriminate].
  intros H. apply wbind_ok in H as (k1 & [] & k2 & H1 & H2 & ->). apply wbind_ok in H2 as (k3 & [] & k4 & H3 & H4 & ->).
  injection H4 as <- <-. split; [reflexivity|]. apply one_sided_ok in H1 as (l1 & F1 & ->). apply one_sided_ok in H3 as (l2 & F2 & ->).
  exists (list_sum (map (@length string) l1)), (list_sum (map (@length string) l2)).
  split; [now exists l1|]. split; [now exists l2|]. rewrite !list_sum_app. simpl. lia.
Qed.
Lemma child_types_complete so do mapping n : child_types so do mapping n ->
  exists ks, pchildren_mapping so do = (ks, Ok mapping) /\ list_sum ks = n.
Proof.
  unfold pchildren_mapping, child_types. destruct so as [s|], do as [d|]; try (intros [-> ->]; exists []; split; reflexivity); [|intros []].
  intros (-> & a & b & (l1 & F1 & ->) & (l2 & F2 & ->) & ->).
  pose proof (proj2 (one_sided_ok s (get_children_mapping d) (get_children_mapping s) _) (ex_intro _ l1 (conj F1 eq_refl))) as H1.
  pose proof (proj2 (one_sided_ok d (get_children_mapping s) (get_children_mapping d) _) (ex_intro _ l2 (conj F2 eq_refl))) as H2.
  eexists. split.
  - eapply wbind_intro; [exact H1|]. eapply wbind_intro; [exact H2|]. reflexivity.
  - rewrite !list_sum_app. simpl. lia.
Qed.

(** ** grouping *)
Lemma grouped_nil : grouped [] [].
Proof. split; [reflexivity|]. split; intros t; [reflexivity|constructor]. Qed.
Lemma filter_snoc {A} (p : A -> bool) l x : filter p (l ++ [x]) = filter p l ++ (if p x then [x] else []).
Proof. rewrite filter_app. simpl. now destruct (p x). Qed.
Lemma grouped_add gs es e gs' : grouped gs es -> groups_add gs e = Ok gs' -> grouped gs' (es ++ [e]).
Proof.
  intros (K & G & ND) E. unfold groups_add in E. destruct (dmem (group_of gs (e_type e)) (e_name e)) eqn:D; [discriminate|].
  injection E as <-. apply dmem_false in D.
  assert (GO : forall t, group_of (dset gs (e_type e) (dset (group_of gs (e_type e)) (e_name e) e)) t =
     if String.eqb t (e_type e) then group_of gs (e_type e) ++ [(e_name e, e)] else group_of gs t).
  { intros t. unfold group_of at 1. rewrite dget_dset. destruct (String.eqb t (e_type e)); [now apply dset_absent|reflexivity]. }
  split; [|split].
  - rewrite dkeys_dset, map_app, keep_first_app, <- K. simpl.
    assert (X : smem (e_type e) (map e_type es) = dmem gs (e_type e)).
    { destruct (dmem gs (e_type e)) eqn:Y.
      - apply smem_In, In_keep_first. rewrite <- K. now apply dmem_In.
      - apply smem_false. intros I. apply In_keep_first in I. rewrite <- K in I. apply dmem_In in I. congruence. }
    rewrite X. destruct (dmem gs (e_type e)); simpl; [now rewrite app_nil_r|reflexivity].
  - intros t. rewrite GO, filter_snoc. rewrite (String.eqb_sym (e_type e) t).
    destruct (String.eqb_spec t (e_type e)) as [->|N]; [|rewrite app_nil_r; apply G]. rewrite map_app, <- G. reflexivity.
  - intros t. rewrite GO. destruct (String.eqb t (e_type e)); [|apply ND]. unfold dkeys. rewrite map_app. simpl.
    apply NoDup_snoc'; [apply ND|]. now apply dget_None.
Qed.
Lemma grouped_adds es : forall gs es0 gs', grouped gs es0 -> add_elems gs es = Ok gs' -> grouped gs' (es0 ++ es).
Proof.
  induction es as [|e es IH]; intros gs es0 gs' G E; simpl in E.
  - injection E as <-. now rewrite app_nil_r.
  - destruct (groups_add gs e) as [gs1|] eqn:A; [|discriminate]. simpl in E.
    replace (es0 ++ e :: es) with ((es0 ++ [e]) ++ es) by now rewrite <- app_assoc.
    eapply IH; [|exact E]. eapply grouped_add; eauto.
Qed.
Lemma dict_ext {A} (d1 d2 : dict A) : NoDup (dkeys d1) -> dkeys d1 = dkeys d2 -> (forall k, dget d1 k = dget d2 k) -> d1 = d2.
Proof.
  revert d2. induction d1 as [|[k v] d1 IH]; intros [|[k' v'] d2] ND K G; try discriminate; [reflexivity|].
  simpl in K. injection K as <- K. simpl in ND. inversion ND as [|? ? N1 N2]; subst.
  pose proof (G k) as X. simpl in X. rewrite String.eqb_refl in X. injection X as <-. f_equal. apply IH; auto.
  intros k'. destruct (String.eqb_spec k' k) as [->|N].
  - assert (dget d1 k = None) as -> by (now apply dget_None). symmetry. apply dget_None. now rewrite <- K.
  - specialize (G k'). simpl in G. destruct (String.eqb_spec k' k); [contradiction|exact G].
Qed.
Lemma grouped_unique gs gs' es : grouped gs es -> grouped gs' es -> gs = gs'.
Proof.
  intros (K & G & _) (K' & G' & _). apply dict_ext.
  - rewrite K. apply NoDup_keep_first.
  - congruence.
  - intros t. specialize (G t). specialize (G' t). unfold group_of in G, G'.
    destruct (dget gs t) as [g|] eqn:E; destruct (dget gs' t) as [g'|] eqn:E'; try reflexivity.
    + congruence.
    + exfalso. apply dget_Some_key in E. rewrite K, <- K' in E. apply dget_None in E'. contradiction.
    + exfalso. apply dget_Some_key in E'. rewrite K', <- K in E'. apply dget_None in E. contradiction.
Qed.
(** a longer list can be grouped only if its beginning can *)
Lemma groups_of_prefix gs es e rest gs' : grouped gs es -> grouped gs' (es ++ e :: rest) -> exists gs1, groups_add gs e = Ok gs1.
Proof.
  intros (K & G & _) (K' & G' & ND'). unfold groups_add. destruct (dmem (group_of gs (e_type e)) (e_name e)) eqn:D; [|eauto].
  exfalso. apply dmem_In in D. specialize (ND' (e_type e)). rewrite G' in ND'. rewrite G in D.
  rewrite filter_app, map_app in ND'. simpl in ND'. rewrite String.eqb_refl in ND'. simpl in ND'.
  unfold dkeys in ND'. rewrite map_app in ND'. simpl in ND'.
  apply NoDup_remove_2 in ND'. apply ND'. apply in_app_iff. left. exact D.
Qed.
Lemma add_elems_complete es : forall gs es0 gs', grouped gs es0 -> grouped gs' (es0 ++ es) -> add_elems gs es = Ok gs'.
Proof.
  induction es as [|e es IH]; intros gs es0 gs' G G'; simpl.
  - rewrite app_nil_r in G'. f_equal. eapply grouped_unique; eauto.
  - destruct (groups_of_prefix _ _ _ _ _ G G') as [gs1 E]. rewrite E. simpl.
    apply (IH gs1 (es0 ++ [e])); [eapply grouped_add; eauto|]. now rewrite <- app_assoc.
Qed.
(** any beginning of a groupable list is groupable *)
Lemma grouped_prefix es1 es2 gs' : grouped gs' (es1 ++ es2) -> exists gs, grouped gs es1.
Proof.
  intros G'. assert (X : exists gs, add_elems [] es1 = Ok gs).
  { cut (forall es1 gs es0 es2 gs', grouped gs es0 -> grouped gs' (es0 ++ es1 ++ es2) -> exists g, add_elems gs es1 = Ok g).
    { intros H. exact (H es1 [] [] es2 gs' grouped_nil G'). }
    clear. induction es1 as [|e es1 IH]; intros gs es0 es2 gs' G G'; simpl; [eauto|].
    destruct (groups_of_prefix _ _ _ _ _ G G') as [gs1 E]. rewrite E. simpl.
    apply (IH gs1 (es0 ++ [e]) es2 gs'); [eapply grouped_add; eauto|]. now rewrite <- app_assoc. }
  destruct X as [gs X]. exists gs. exact (grouped_adds es1 [] [] gs grouped_nil X).
Qed.

Lemma list_sum_cons x l : list_sum (x :: l) = x + list_sum l.
Proof. reflexivity. Qed.
Lemma list_sum_nil : list_sum [] = 0.
Proof. reflexivity. Qed.

Definition esides (es : list elem) : nat := list_sum (map sides (flat_map elem_all es)).
Lemma esides_app l m : esides (l ++ m) = esides l + esides m.
Proof. unfold esides. now rewrite flat_map_app, map_app, list_sum_app. Qed.
Lemma esides_cons e l : esides (e :: l) = sides e + tree_sides (e_kids e) + esides l.
Proof.
  unfold esides, tree_sides. simpl flat_map. rewrite map_app, list_sum_app. f_equal.
  rewrite elem_all_eq. reflexivity.
Qed.
Lemma dget_group (gs : dict (dict elem)) t : In t (dkeys gs) -> dget gs t = Some (group_of gs t).
Proof.
  intros I. unfold group_of. destruct (dget gs t) eqn:E; [reflexivity|]. apply dget_None in E. contradiction.
Qed.
Lemma children_flat (gs : dict (dict elem)) : NoDup (dkeys gs) -> children gs = flat_map (fun t => dvals (group_of gs t)) (dkeys gs).
Proof.
  intros ND. unfold children, dkeys. rewrite flat_map_concat_map, flat_map_concat_map, map_map. f_equal.
  apply map_ext_in. intros [t g] I. simpl. unfold group_of. now rewrite (In_dget _ _ _ ND I).
Qed.
Lemma keep_first_partition (es : list elem) :
  Permutation (flat_map (fun t => filter (fun e => String.eqb (e_type e) t) es) (keep_first (map e_type es))) es.
Proof.
  induction es as [|e es IH]; simpl; [constructor|]. rewrite String.eqb_refl. simpl. apply perm_skip.
  set (K := keep_first (map e_type es)) in *. pose proof (NoDup_keep_first (map e_type es)) as ND. fold K in ND.
  transitivity (flat_map (fun t => filter (fun x => String.eqb (e_type x) t) es)
     (e_type e :: filter (fun y => negb (String.eqb y (e_type e))) K)).
  { simpl. apply Permutation_app_head. erewrite flat_map_ext_in_r; [reflexivity|].
    intros t I. apply filter_In in I as [_ I]. rewrite String.eqb_sym.
    destruct (String.eqb t (e_type e)); [discriminate|reflexivity]. }
  transitivity (flat_map (fun t => filter (fun x => String.eqb (e_type x) t) es) K); [|exact IH].
  destruct (in_dec string_dec (e_type e) K) as [I|I].
  - apply Permutation_flat_map. apply NoDup_Permutation; [|exact ND|].
    + constructor; [|now apply NoDup_filter]. rewrite filter_In, String.eqb_refl. intros [_ H]. discriminate.
    + intros x. simpl. rewrite filter_In. destruct (String.eqb_spec x (e_type e)) as [->|N]; simpl; intuition congruence.
  - assert (F : filter (fun x => String.eqb (e_type x) (e_type e)) es = []).
    { assert (Y : forall x, In x es -> String.eqb (e_type x) (e_type e) = false).
      { intros x J. apply String.eqb_neq. intros Z. apply I. unfold K. apply In_keep_first. rewrite <- Z. now apply in_map. }
      clear - Y. induction es as [|x es IH]; simpl; [reflexivity|]. rewrite (Y x (or_introl eq_refl)). apply IH.
      intros y J. apply Y. now right. }
    simpl. rewrite F. simpl. rewrite filter_all; [reflexivity|]. intros x J.
    destruct (String.eqb_spec x (e_type e)); [congruence|reflexivity].
Qed.
Lemma grouped_children gs es : grouped gs es -> Permutation (children gs) es.
Proof.
  intros (K & G & ND). rewrite children_flat by (rewrite K; apply NoDup_keep_first). rewrite K.
  transitivity (flat_map (fun t => filter (fun e => String.eqb (e_type e) t) es) (keep_first (map e_type es))); [|apply keep_first_partition].
  rewrite (flat_map_ext_in_r _ (fun t => filter (fun e => String.eqb (e_type e) t) es)); [reflexivity|].
  intros t _. rewrite G. unfold dvals. rewrite map_map. apply map_id.
Qed.
Lemma tree_sides_grouped gs es : grouped gs es -> tree_sides gs = esides es.
Proof.
  intros G. unfold tree_sides, esides. rewrite tree_all_children. apply list_sum_perm, Permutation_map, Permutation_flat_map.
  now apply grouped_children.
Qed.

(** ** the calculation is faithful, and faithful elements are computed *)
Section Plist.
  Variable flags : N.
  Variables sn dn : string.
  Variables rs rd : list string -> string -> result (list obj).

  Section Step.
    Variable prec : list obj -> list obj -> W (list elem).
    Variable rec : list obj -> list obj -> list elem -> nat -> Prop.
    Hypothesis prec_ok : forall ss dd ks es, prec ss dd = (ks, Ok es) -> exists k, rec ss dd es k /\ list_sum ks = k + esides es.
    Hypothesis rec_ok : forall ss dd es k, rec ss dd es k -> exists ks, prec ss dd = (ks, Ok es) /\ list_sum ks = k + esides es.

    Definition kid_ok (so do : option obj) (tf : string * string) (k : list elem * nat) : Prop :=
      exists ss dd, kids_of rs so (snd tf) (fst tf) = Ok ss /\ kids_of rd do (snd tf) (fst tf) = Ok dd /\
                    rec ss dd (fst k) (snd k).

    Lemma pchild_types_ok so do mapping : forall gs es0 ks gs', grouped gs es0 ->
      pchild_types rs rd prec so do mapping gs = (ks, Ok gs') ->
      exists kids, Forall2 (kid_ok so do) mapping kids /\ grouped gs' (es0 ++ flat_map fst kids) /\
        list_sum ks = list_sum (map snd kids) + esides (flat_map fst kids).
    Proof.
      induction mapping as [|[t f] mp IH]; intros gs es0 ks gs' G H; cbn [pchild_types] in H.
      - injection H as <- <-. exists []. simpl. rewrite app_nil_r. auto.
      - apply wbind_ok in H as (k1 & ss & r1 & H1 & H & ->). apply wlift_ok in H1 as [-> H1].
        apply wbind_ok in H as (k2 & dd & r2 & H2 & H & ->). apply wlift_ok in H2 as [-> H2].
        apply wbind_ok in H as (k3 & es & r3 & H3 & H & ->). apply wbind_ok in H as (k4 & gs1 & r4 & H4 & H & ->).
        apply wlift_ok in H4 as [-> H4]. destruct (prec_ok _ _ _ _ H3) as (k & R & S3).
        pose proof (grouped_adds _ _ _ _ G H4) as G1. destruct (IH _ _ _ _ G1 H) as (kids & F & G2 & S4).
        exists ((es, k) :: kids). split; [|split].
        + constructor; [|exact F]. exists ss, dd. auto.
        + simpl. now rewrite app_assoc.
        + cbn [flat_map map fst snd]. change (list_sum (k :: map snd kids)) with (k + list_sum (map snd kids)).
          simpl app. rewrite list_sum_app, esides_app. simpl app. lia.
    Qed.
    Lemma pchild_types_complete so do mapping kids : Forall2 (kid_ok so do) mapping kids ->
      forall gs es0 gs', grouped gs es0 -> grouped gs' (es0 ++ flat_map fst kids) ->
      exists ks, pchild_types rs rd prec so do mapping gs = (ks, Ok gs') /\
        list_sum ks = list_sum (map snd kids) + esides (flat_map fst kids).
    Proof.
      induction 1 as [|[t f] [es k] mp kids (ss & dd & H1 & H2 & R) F IH]; intros gs es0 gs' G G'; cbn [pchild_types].
      - simpl in G'. rewrite app_nil_r in G'. rewrite (grouped_unique _ _ _ G G'). exists []. auto.
      - simpl in H1, H2, R, G'. rewrite app_assoc in G'. destruct (grouped_prefix _ _ _ G') as [gs1 G1].
        destruct (IH _ _ _ G1 G') as (ks & E & S1). destruct (rec_ok _ _ _ _ R) as (k3 & E3 & S3).
        eexists. split.
        + eapply wbind_intro; [unfold wlift; now rewrite H1|]. eapply wbind_intro; [unfold wlift; now rewrite H2|].
          eapply wbind_intro; [exact E3|]. eapply wbind_intro; [unfold wlift; now rewrite (add_elems_complete _ _ _ _ G G1)|].
          exact E.
        + cbn [flat_map map fst snd]. change (list_sum (k :: map snd kids)) with (k + list_sum (map snd kids)).
          simpl app. rewrite list_sum_app, esides_app. lia.
    Qed.

    Definition out_sides (out : option elem * nat) : nat :=
      match fst out with Some e => esides [e] | None => 0 end.

    Lemma uid_ok so do : (exists o u, either so do = Some o /\ get_unique_id o = Ok u) ->
      exists o u, either so do = Some o /\ get_unique_id o = Ok u.
    Proof. auto. Qed.

    Lemma ppair_ok so do ks oe : ppair flags sn dn rs rd prec so do = (ks, Ok oe) ->
      exists k, pair_ok flags sn dn rs rd rec so do (oe, k) /\ list_sum ks = k + out_sides (oe, k).
    Proof.
      unfold ppair. destruct (either so do) as [o|] eqn:O; [|discriminate]. intros H.
      apply wbind_ok in H as (k1 & u & r1 & H1 & H & ->). apply wlift_ok in H1 as [-> H1].
      apply wbind_ok in H as (k2 & n & r2 & H2 & H & ->). apply wlift_ok in H2 as [-> H2].
      destruct (skip_pair flags so do) eqn:S.
      - apply wbind_ok in H as (k3 & [] & r3 & H3 & H & ->). injection H as <- <-. injection H3 as <-.
        exists 1. split; [|reflexivity]. split; [exists o, n; auto|]. left. split; [now apply skip_pair_spec|reflexivity].
      - apply wbind_ok in H as (k3 & [] & r3 & H3 & H & ->). apply wbind_ok in H as (k4 & mapping & r4 & H4 & H & ->).
        apply wbind_ok in H as (k5 & gs & r5 & H5 & H & ->). injection H as <- <-. injection H3 as <-.
        apply child_types_ok in H4. destruct (pchild_types_ok _ _ _ _ _ _ _ grouped_nil H5) as (kids & F & G & S5).
        simpl in G. exists (list_sum k4 + list_sum (map snd kids)). split.
        + split; [exists o, n; auto|]. right. split; [rewrite <- skip_pair_spec; congruence|].
          eexists. exists mapping, (list_sum k4), kids. split; [reflexivity|]. split; [|split; [exact H4|split; [exact F|exact G]]].
          split; [reflexivity|]. split; [reflexivity|]. split; [reflexivity|]. split; [reflexivity|]. exists o. auto.
        + unfold out_sides. cbn [fst]. rewrite esides_cons. cbn [e_kids e_src e_dst]. rewrite (tree_sides_grouped _ _ G).
          unfold sides. cbn [e_src e_dst app]. change (esides []) with 0.
          rewrite !list_sum_cons, !list_sum_app, list_sum_nil, S5. destruct so, do; simpl option_map; cbv iota; lia.
    Qed.
    Lemma ppair_complete so do o u oe k : either so do = Some o -> get_unique_id o = Ok u ->
      pair_ok flags sn dn rs rd rec so do (oe, k) ->
      exists ks, ppair flags sn dn rs rd prec so do = (ks, Ok oe) /\ list_sum ks = k + out_sides (oe, k).
    Proof.
      intros O U [(o' & n & O' & N) H]. rewrite O in O'. injection O' as <-. unfold ppair. rewrite O.
      destruct H as [[S E]|[S (e & mapping & sk & kids & E & D & C & F & G)]].
      - injection E as -> ->. apply skip_pair_spec in S. rewrite S. exists [1]. split; [|reflexivity].
        eapply (wbind_intro _ _ []); [unfold wlift; now rewrite U|]. eapply (wbind_intro _ _ []); [unfold wlift; now rewrite N|].
        reflexivity.
      - injection E as -> ->.
        destruct (skip_pair flags so do) eqn:S'; [apply skip_pair_spec in S'; contradiction|].
        destruct (child_types_complete _ _ _ _ C) as (k4 & E4 & S4).
        destruct (pchild_types_complete _ _ _ _ F [] [] (e_kids e) grouped_nil G) as (k5 & E5 & S5).
        eexists. split.
        + eapply wbind_intro; [unfold wlift; now rewrite U|]. eapply wbind_intro; [unfold wlift; now rewrite N|].
          eapply wbind_intro; [reflexivity|]. eapply wbind_intro; [exact E4|]. eapply wbind_intro; [exact E5|].
          destruct D as (D1 & D2 & D3 & D4 & o' & O' & T & N' & K). rewrite O in O'. injection O' as <-.
          rewrite N in N'. injection N' as ->. destruct e; simpl in *; subst. reflexivity.
        + unfold out_sides. cbn [fst]. rewrite esides_cons, (tree_sides_grouped _ _ G).
          destruct D as (D1 & D2 & D3 & D4 & _). unfold sides. rewrite D3, D4.
          cbn [app]. change (esides []) with 0.
          rewrite !list_sum_cons, !list_sum_app, list_sum_nil, S4, S5. destruct so, do; simpl option_map; cbv iota; lia.
    Qed.

    Lemma ppairs_ok (g : string -> option obj * option obj) l : forall ks es,
      ppairs flags sn dn rs rd prec (map (fun u => (u, g u)) l) = (ks, Ok es) ->
      exists outs, Forall2 (fun u out => pair_ok flags sn dn rs rd rec (fst (g u)) (snd (g u)) out) l outs /\
        es = somes outs /\ list_sum ks = list_sum (map snd outs) + esides es.
    Proof.
      induction l as [|u l IH]; intros ks es H; cbn [map ppairs] in H.
      - injection H as <- <-. exists []. split; [constructor|split; reflexivity].
      - destruct (g u) as [so do] eqn:GU. apply wbind_ok in H as (k1 & oe & r1 & H1 & H & ->).
        apply wbind_ok in H as (k2 & es2 & r2 & H2 & H & ->). injection H as <- <-.
        destruct (IH _ _ H2) as (outs & F & -> & S2). destruct (ppair_ok _ _ _ _ H1) as (k & P & S1).
        exists ((oe, k) :: outs). split; [|split].
        + constructor; [|exact F]. rewrite GU. exact P.
        + destruct oe; reflexivity.
        + rewrite !list_sum_app. cbn [map snd]. change (list_sum (k :: map snd outs)) with (k + list_sum (map snd outs)).
          change (list_sum []) with 0. unfold out_sides in S1. cbn [fst] in S1.
          assert (X : esides match oe with Some e' => e' :: somes outs | None => somes outs end =
            match oe with Some e => esides [e] | None => 0 end + esides (somes outs)).
          { destruct oe as [e|]; [|reflexivity]. change (e :: somes outs) with ([e] ++ somes outs). apply esides_app. }
          rewrite X. lia.
    Qed.
    Lemma ppairs_complete (g : string -> option obj * option obj) l outs :
      (forall u, In u l -> exists o v, either (fst (g u)) (snd (g u)) = Some o /\ get_unique_id o = Ok v) ->
      Forall2 (fun u out => pair_ok flags sn dn rs rd rec (fst (g u)) (snd (g u)) out) l outs ->
      exists ks, ppairs flags sn dn rs rd prec (map (fun u => (u, g u)) l) = (ks, Ok (somes outs)) /\
        list_sum ks = list_sum (map snd outs) + esides (somes outs).
    Proof.
      intros UI F. induction F as [|u [oe k] l outs P F IH]; cbn [map ppairs].
      - exists []. split; reflexivity.
      - destruct IH as (k2 & E2 & S2); [intros v I; apply UI; now right|].
        destruct (UI u (or_introl eq_refl)) as (o & v & O & U). destruct (g u) as [so do] eqn:GU. simpl in O, P.
        destruct (ppair_complete _ _ _ _ _ _ O U P) as (k1 & E1 & S1). eexists. split.
        + eapply wbind_intro; [exact E1|]. eapply wbind_intro; [exact E2|].
          unfold wret. f_equal. f_equal. destruct oe; reflexivity.
        + rewrite !list_sum_app. cbn [map snd]. change (list_sum (k :: map snd outs)) with (k + list_sum (map snd outs)).
          change (list_sum []) with 0. unfold out_sides in S1. cbn [fst] in S1.
          assert (X : esides (somes ((oe, k) :: outs)) =
            match oe with Some e => esides [e] | None => 0 end + esides (somes outs)).
          { destruct oe as [e|]; [|reflexivity]. change (somes ((Some e, k) :: outs)) with ([e] ++ somes outs). apply esides_app. }
          rewrite X. lia.
    Qed.
  End Step.

  Lemma map_Ok_length ss (us : list string) : map get_unique_id ss = map Ok us -> length ss = length us.
  Proof. intros H. apply (f_equal (@length _)) in H. now rewrite !map_length in H. Qed.

  Lemma pairs_corresponding ss dd us vs : map get_unique_id ss = map Ok us -> map get_unique_id dd = map Ok vs ->
    validate_pairs (dvals (map (fun u => (u, (with_uid u ss, with_uid u dd))) (keep_first (us ++ vs)))) = Ok tt <->
    (forall u s d, with_uid u ss = Some s -> with_uid u dd = Some d -> corresponding s d).
  Proof.
    intros E1 E2. rewrite validate_pairs_ok. unfold dvals. rewrite map_map. simpl. split.
    - intros H u s d S D. apply H. apply in_map_iff. exists u. rewrite S, D. split; [reflexivity|].
      apply In_keep_first, in_app_iff. left. destruct (in_dec string_dec u us) as [I|I]; [exact I|].
      apply (with_uid_None u ss us E1) in I. congruence.
    - intros H s d I. apply in_map_iff in I as (u & E & _). injection E as S D. eauto.
  Qed.
  Lemma pair_has ss dd us vs u : map get_unique_id ss = map Ok us -> map get_unique_id dd = map Ok vs ->
    In u (keep_first (us ++ vs)) -> exists o, either (with_uid u ss) (with_uid u dd) = Some o /\ get_unique_id o = Ok u.
  Proof.
    intros E1 E2 I. apply In_keep_first, in_app_iff in I. destruct (with_uid u ss) as [s|] eqn:S; simpl.
    - exists s. split; [reflexivity|]. now apply with_uid_Some in S.
    - destruct I as [I|I].
      + apply (with_uid_None u ss us E1) in S. contradiction.
      + destruct (with_uid_In u dd vs E2 I) as [d D]. rewrite D. exists d. split; [reflexivity|]. now apply with_uid_Some in D.
  Qed.

  Lemma plist_faithful n : forall ss dd ks es, plist flags sn dn rs rd n ss dd = (ks, Ok es) ->
    exists k, faithful flags sn dn rs rd n ss dd es k /\ list_sum ks = k + esides es.
  Proof.
    induction n as [|n IH]; intros ss dd ks es H; [discriminate|]. cbn [plist] in H. unfold plist_body in H.
    apply wbind_ok in H as (k1 & ds & r1 & H1 & H & ->). apply wlift_ok in H1 as [-> H1].
    apply wbind_ok in H as (k2 & de & r2 & H2 & H & ->). apply wlift_ok in H2 as [-> H2].
    apply wbind_ok in H as (k3 & [] & r3 & H3 & H & ->). injection H3 as <-.
    apply wbind_ok in H as (k4 & [] & r4 & H4 & H & ->). apply wlift_ok in H4 as [-> H4].
    destruct (index_inv _ _ _ H1) as [us E1]. destruct (index_inv _ _ _ H2) as [vs E2].
    rewrite (pair_up_spec _ _ _ _ _ _ E1 E2 H1 H2) in *.
    apply (ppairs_ok _ _ IH (fun u => (with_uid u ss, with_uid u dd))) in H as (outs & F & -> & S).
    exists ((length us - length outs) + (length vs - length outs) + list_sum (map snd outs)). split.
    - exists us, vs, outs. split; [exact E1|]. split; [exact E2|]. split; [now apply (proj1 (pairs_corresponding _ _ _ _ E1 E2))|].
      split; [exact F|]. split; reflexivity.
    - simpl app. rewrite map_length, (Forall2_length' _ _ _ F), (map_Ok_length _ _ E1), (map_Ok_length _ _ E2).
      match goal with |- list_sum (?x :: r4) = _ => change (list_sum (x :: r4)) with (x + list_sum r4) end. lia.
  Qed.
  Lemma faithful_plist n : forall ss dd es k, faithful flags sn dn rs rd n ss dd es k ->
    exists ks, plist flags sn dn rs rd n ss dd = (ks, Ok es) /\ list_sum ks = k + esides es.
  Proof.
    induction n as [|n IH]; intros ss dd es k H; [destruct H|].
    destruct H as (us & vs & outs & E1 & E2 & C & F & -> & ->).
    destruct (index_ok ss us [] E1) as (ds & H1 & _). destruct (index_ok dd vs [] E2) as (de & H2 & _).
    destruct (ppairs_complete _ _ IH (fun u => (with_uid u ss, with_uid u dd)) (keep_first (us ++ vs)) outs) as (ks & E & S).
    { intros u I. destruct (pair_has _ _ _ _ _ E1 E2 I) as (o & O & U). exists o, u. auto. }
    { exact F. }
    eexists. split.
    - cbn [plist]. unfold plist_body. eapply wbind_intro; [unfold wlift; now rewrite H1|]. eapply wbind_intro; [unfold wlift; now rewrite H2|].
      eapply wbind_intro; [reflexivity|]. rewrite (pair_up_spec _ _ _ _ _ _ E1 E2 H1 H2).
      eapply wbind_intro; [unfold wlift; now rewrite (proj2 (pairs_corresponding _ _ _ _ E1 E2) C)|]. exact E.
    - rewrite (pair_up_spec _ _ _ _ _ _ E1 E2 H1 H2), map_length, (Forall2_length' _ _ _ F), (map_Ok_length _ _ E1), (map_Ok_length _ _ E2).
      simpl app. match goal with |- list_sum (?x :: ?r) = _ => change (list_sum (x :: r)) with (x + list_sum r) end. lia.
  Qed.
  Lemma faithful_det n ss dd es k es' k' : faithful flags sn dn rs rd n ss dd es k ->
    faithful flags sn dn rs rd n ss dd es' k' -> es = es' /\ k = k'.
  Proof.
    intros H H'. apply faithful_plist in H as (ks & E & S). apply faithful_plist in H' as (ks' & E' & S').
    rewrite E in E'. injection E' as <- <-. split; [reflexivity|lia].
  Qed.
End Plist.

(** ** the whole diff *)
Lemma In_sdedup' l x : In x (sdedup l) <-> In x l.
Proof.
  induction l as [|y l IH]; simpl; [tauto|]. destruct (smem y l) eqn:M; simpl; rewrite IH; [|tauto].
  apply smem_In in M. intuition congruence.
Qed.
Lemma NoDup_sdedup' l : NoDup (sdedup l).
Proof.
  induction l as [|y l IH]; simpl; [constructor|]. destruct (smem y l) eqn:M; [exact IH|].
  constructor; [|exact IH]. rewrite In_sdedup'. now apply smem_false.
Qed.
Lemma In_symdiff l1 l2 t : In t (symmetric_difference l1 l2) <-> (In t l2 /\ ~ In t l1) \/ (In t l1 /\ ~ In t l2).
Proof.
  unfold symmetric_difference. transitivity (In t (sdedup (filter (fun x => negb (smem x l2)) l1 ++ filter (fun x => negb (smem x l1)) l2))).
  { split; apply Permutation_in; [|symmetry]; apply ssort_perm. }
  rewrite In_sdedup', in_app_iff, !filter_In, !negb_true_iff, !smem_false. tauto.
Qed.
Lemma NoDup_symdiff l1 l2 : NoDup (symmetric_difference l1 l2).
Proof.
  unfold symmetric_difference. eapply Permutation_NoDup; [symmetry; apply ssort_perm|apply NoDup_sdedup'].
Qed.

Lemma pskipped_ok dtop stop as_ ad_ l : forall ks, (forall t, In t l -> In t dtop \/ In t stop) ->
  wforM l (fun t =>
      if smem t dtop then wbind (wlift (ad_ t)) (fun l : list obj => wtick (length l))
      else if smem t stop then wbind (wlift (as_ t)) (fun l : list obj => wtick (length l))
      else wret tt) = (ks, Ok tt) <->
  Forall2 (fun t n => exists l, n = length l /\ (if smem t dtop then ad_ t else as_ t) = Ok l) l ks.
Proof.
  induction l as [|t l IH]; intros ks D; cbn [wforM].
  - split; [intros H; injection H as <-; constructor|]. intros H. now inversion H.
  - assert (D' : forall t, In t l -> In t dtop \/ In t stop) by (intros; apply D; now right).
    specialize (IH).
    assert (X : forall r : result (list obj), (if smem t dtop then ad_ t else as_ t) = r ->
      (if smem t dtop then wbind (wlift (ad_ t)) (fun l : list obj => wtick (length l))
       else if smem t stop then wbind (wlift (as_ t)) (fun l : list obj => wtick (length l)) else wret tt) =
      wbind (wlift r) (fun l => wtick (length l))).
    { intros r E. destruct (smem t dtop) eqn:M1; [now rewrite E|].
      destruct (smem t stop) eqn:M2; [now rewrite E|]. exfalso.
      destruct (D t (or_introl eq_refl)) as [I|I]; apply smem_In in I; congruence. }
    rewrite (X _ eq_refl). split.
    + intros H. apply wbind_ok in H as (k1 & [] & k2 & H1 & H2 & ->).
      apply wbind_ok in H1 as (k3 & x & k4 & H3 & H4 & ->). apply wlift_ok in H3 as [-> H3]. injection H4 as <-.
      simpl. constructor; [now exists x|]. now apply IH.
    + intros H. inversion H as [|? k ? ks' (x & -> & E) F]; subst.
      apply (wbind_intro _ _ [length x] tt); [|now apply IH]. unfold wlift. rewrite E. reflexivity.
Qed.

Lemma ptypes_ok flags sn dn rs rd as_ ad_ n types : forall gs es0 ks gs', grouped gs es0 ->
  ptypes flags sn dn rs rd as_ ad_ n types gs = (ks, Ok gs') ->
  exists per, Forall2 (fun t (k : list elem * nat) => exists ss dd, as_ t = Ok ss /\ ad_ t = Ok dd /\
      faithful flags sn dn rs rd n ss dd (fst k) (snd k)) types per /\
    grouped gs' (es0 ++ flat_map fst per) /\
    list_sum ks = list_sum (map snd per) + esides (flat_map fst per).
Proof.
  induction types as [|t types IH]; intros gs es0 ks gs' G H; cbn [ptypes] in H.
  - injection H as <- <-. exists []. simpl. rewrite app_nil_r. auto.
  - apply wbind_ok in H as (k1 & ss & r1 & H1 & H & ->). apply wlift_ok in H1 as [-> H1].
    apply wbind_ok in H as (k2 & dd & r2 & H2 & H & ->). apply wlift_ok in H2 as [-> H2].
    apply wbind_ok in H as (k3 & es & r3 & H3 & H & ->). apply wbind_ok in H as (k4 & gs1 & r4 & H4 & H & ->).
    apply wlift_ok in H4 as [-> H4]. destruct (plist_faithful _ _ _ _ _ _ _ _ _ _ H3) as (k & R & S3).
    pose proof (grouped_adds _ _ _ _ G H4) as G1. destruct (IH _ _ _ _ G1 H) as (per & F & G2 & S4).
    exists ((es, k) :: per). split; [|split].
    + constructor; [|exact F]. exists ss, dd. auto.
    + simpl. now rewrite app_assoc.
    + cbn [flat_map map fst snd]. rewrite list_sum_cons. simpl app. rewrite list_sum_app, esides_app. lia.
Qed.
Lemma ptypes_complete flags sn dn rs rd as_ ad_ n types per :
  Forall2 (fun t (k : list elem * nat) => exists ss dd, as_ t = Ok ss /\ ad_ t = Ok dd /\
      faithful flags sn dn rs rd n ss dd (fst k) (snd k)) types per ->
  forall gs es0 gs', grouped gs es0 -> grouped gs' (es0 ++ flat_map fst per) ->
  exists ks, ptypes flags sn dn rs rd as_ ad_ n types gs = (ks, Ok gs') /\
    list_sum ks = list_sum (map snd per) + esides (flat_map fst per).
Proof.
  induction 1 as [|t [es k] types per (ss & dd & H1 & H2 & R) F IH]; intros gs es0 gs' G G'; cbn [ptypes].
  - simpl in G'. rewrite app_nil_r in G'. rewrite (grouped_unique _ _ _ G G'). exists []. auto.
  - simpl in R, G'. rewrite app_assoc in G'. destruct (grouped_prefix _ _ _ G') as [gs1 G1].
    destruct (IH _ _ _ G1 G') as (ks & E & S1). destruct (faithful_plist _ _ _ _ _ _ _ _ _ _ R) as (k3 & E3 & S3).
    eexists. split.
    + eapply wbind_intro; [unfold wlift; now rewrite H1|]. eapply wbind_intro; [unfold wlift; now rewrite H2|].
      eapply wbind_intro; [exact E3|]. eapply wbind_intro; [unfold wlift; now rewrite (add_elems_complete _ _ _ _ G G1)|].
      exact E.
    + cbn [flat_map map fst snd]. rewrite list_sum_cons. simpl app. rewrite list_sum_app, esides_app. lia.
Qed.

Lemma Forall2_if {A B} (P Q : A -> B -> Prop) l m : (forall x y, P x y -> Q x y) -> Forall2 P l m -> Forall2 Q l m.
Proof. intros H F. induction F; constructor; auto. Qed.
Lemma Forall2_perm {A B} (P : A -> B -> Prop) l l' m : Forall2 P l m -> Permutation l l' -> exists m', Forall2 P l' m' /\ Permutation m m'.
Proof.
  intros F H. revert m F. induction H as [|x l l' H IH|x y l|l l' l'' H1 IH1 H2 IH2]; intros m F.
  - inversion F; subst. exists []. auto.
  - inversion F as [|? b ? m' P1 F']; subst. destruct (IH _ F') as (m'' & F2 & P2). exists (b :: m''). split; [now constructor|now constructor].
  - inversion F as [|? b ? m' P1 F']; subst. inversion F' as [|? c ? m'' P2 F'']; subst. exists (c :: b :: m''). split; [repeat constructor; auto|constructor].
  - destruct (IH1 _ F) as (m1 & F1 & P1). destruct (IH2 _ F1) as (m2 & F2 & P2). exists m2. split; [exact F2|]. now transitivity m1.
Qed.

Lemma pdiff_faithful n flags w src dst sa da ks gs : pdiff n flags w src dst sa da = (ks, Ok gs) ->
  exists k, faithful_diff flags n w src dst sa da gs k /\ list_sum ks = k + tree_sides gs.
Proof.
  unfold pdiff, pcalc. intros H. apply wbind_ok in H as (k1 & [] & k2 & H1 & H2 & ->).
  apply pskipped_ok in H1; [|intros t I; apply In_symdiff in I; tauto].
  destruct (ptypes_ok _ _ _ _ _ _ _ _ _ _ _ _ _ grouped_nil H2) as (per & F & G & S). simpl in G.
  exists (list_sum k1 + list_sum (map snd per)). split.
  - exists (symmetric_difference (ad_top da) (ad_top sa)), k1, per. split; [apply NoDup_symdiff|].
    split; [intros t; apply In_symdiff|]. split; [|split; [exact F|split; [exact G|reflexivity]]].
    refine (Forall2_if _ _ _ _ _ H1). intros t m (l & -> & E). exists l. split; [reflexivity|].
    now destruct (smem t (ad_top da)).
  - rewrite list_sum_app, S, (tree_sides_grouped _ _ G). lia.
Qed.
Lemma faithful_pdiff n flags w src dst sa da gs k : faithful_diff flags n w src dst sa da gs k ->
  exists ks, pdiff n flags w src dst sa da = (ks, Ok gs) /\ list_sum ks = k + tree_sides gs.
Proof.
  intros (lone & others & per & ND & L & O & F & G & ->).
  destruct (ptypes_complete _ _ _ _ _ _ _ _ _ _ F [] [] gs grouped_nil G) as (k2 & E2 & S2).
  assert (PE : Permutation lone (symmetric_difference (ad_top da) (ad_top sa))).
  { apply NoDup_Permutation; [exact ND|apply NoDup_symdiff|]. intros t. rewrite L. symmetry. apply In_symdiff. }
  destruct (Forall2_perm _ _ _ _ O PE) as (k1 & O1 & P1).
  exists (k1 ++ k2). split.
  - unfold pdiff, pcalc. eapply wbind_intro; [|exact E2].
    apply pskipped_ok; [intros t I; apply In_symdiff in I; tauto|].
    refine (Forall2_if _ _ _ _ _ O1). intros t m (l & -> & E). exists l. split; [reflexivity|].
    now destruct (smem t (ad_top da)).
  - rewrite list_sum_app, S2, (tree_sides_grouped _ _ G), (list_sum_perm _ _ P1). lia.
Qed.
Lemma faithful_diff_det n flags w src dst sa da gs k gs' k' : faithful_diff flags n w src dst sa da gs k ->
  faithful_diff flags n w src dst sa da gs' k' -> gs = gs' /\ k = k'.
Proof.
  intros H H'. apply faithful_pdiff in H as (ks & E & S). apply faithful_pdiff in H' as (ks' & E' & S').
  rewrite E in E'. injection E' as <- <-. split; [reflexivity|lia].
Qed.

(** ** diff_from *)
Lemma diff_from_iff fuel dst src dc flags cb w sa da : w_ok w ->
  nth_error (w_ads w) src = Some sa -> nth_error (w_ads w) dst = Some da ->
  forall d, snd (diff_from fuel dst src dc flags cb w) = Ok d <->
    exists skipped, faithful_diff flags fuel w src dst sa da (d_groups d) skipped /\
                    d_class d = dc /\ d_processed d = tree_sides (d_groups d) + skipped.
Proof.
  intros OK HS HD d. destruct (diff_from_pure fuel dst src dc flags cb w sa da OK HS HD) as (w' & E & _). rewrite E. clear E.
  destruct (pdiff fuel flags w src dst sa da) as [ks r] eqn:P. cbn [fst snd]. split.
  - destruct r as [gs|e]; [|discriminate]. intros H. injection H as <-. cbn [d_groups d_class d_processed].
    destruct (pdiff_faithful _ _ _ _ _ _ _ _ _ P) as (k & F & S). exists k. split; [exact F|]. split; [reflexivity|lia].
  - intros (k & F & C & N). apply faithful_pdiff in F as (ks' & E & S). rewrite P in E. injection E as <- ->.
    destruct d as [c g n]. simpl in *. subst c. do 2 f_equal. lia.
Qed.
