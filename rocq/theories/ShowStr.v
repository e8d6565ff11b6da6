(** * ShowStr: lemmas about Diff.str(). *)
From Verif Require Export ShowDict.

Lemma app_assoc_s (a b c : string) : ((a ++ b) ++ c)%string = (a ++ (b ++ c))%string.
Proof. induction a; simpl; congruence. Qed.
Lemma app_nil_s (a : string) : (a ++ "")%string = a.
Proof. induction a; simpl; congruence. Qed.
Lemma sconcat_cons x l : String.concat "" (x :: l) = (x ++ String.concat "" l)%string.
Proof. destruct l; [simpl; now rewrite app_nil_s|reflexivity]. Qed.
Lemma join_cons a l : join newline (a :: l) = (a ++ String.concat "" (map (fun x => newline ++ x) l))%string.
Proof.
  revert a. induction l as [|b l IH]; intros a; [simpl; now rewrite app_nil_s|].
  change (join newline (a :: b :: l)) with (a ++ newline ++ join newline (b :: l))%string. rewrite IH. cbn [map].
  rewrite sconcat_cons. reflexivity.
Qed.
Lemma sconcat_app l m : String.concat "" (l ++ m) = (String.concat "" l ++ String.concat "" m)%string.
Proof. induction l as [|x l IH]; [reflexivity|]. rewrite <- app_comm_cons, !sconcat_cons, IH. now rewrite app_assoc_s. Qed.
Lemma join_app a l m : join newline ((a :: l) ++ m) = (join newline (a :: l) ++ String.concat "" (map (fun x => newline ++ x) m))%string.
Proof. rewrite <- app_comm_cons, !join_cons, map_app, sconcat_app. now rewrite app_assoc_s. Qed.
Lemma join_flat (lss : list (list string)) : (forall ls, In ls lss -> ls <> []) -> join newline (map (join newline) lss) = join newline (concat lss).
Proof.
  intros H. destruct lss as [|[|a l] lss]; [reflexivity|exfalso; apply (H []); [now left|reflexivity]|].
  cbn [map]. rewrite join_cons. cbn [List.concat]. rewrite join_app. f_equal.
  assert (H' : forall ls, In ls lss -> ls <> []) by (intros ls I; apply H; now right). clear H a l.
  induction lss as [|[|a l] lss IH]; [reflexivity|exfalso; apply (H' []); [now left|reflexivity]|].
  cbn [map]. rewrite join_cons, sconcat_cons. cbn [List.concat]. rewrite <- app_comm_cons; cbn [map]; rewrite !sconcat_cons, map_app, sconcat_app.
  rewrite IH by (intros ls I; apply H'; now right). now rewrite !app_assoc_s.
Qed.

Lemma pick_list (d : dict val) ks : NoDup ks -> pick d ks = flat_map (fun k => match dget d k with Some v => [(k, v)] | None => [] end) ks.
Proof.
  unfold pick. intros ND. assert (G : forall acc : dict val, (forall k, In k ks -> ~ In k (dkeys acc)) ->
    fold_left (fun acc k => match dget d k with Some v => dset acc k v | None => acc end) ks acc =
    acc ++ flat_map (fun k => match dget d k with Some v => [(k, v)] | None => [] end) ks); [|apply (G []); simpl; tauto].
  induction ks as [|k ks IH]; intros acc F; simpl; [now rewrite app_nil_r|]. inversion ND as [|? ? N1 N2]; subst.
  destruct (dget d k) as [v|]; [|apply IH; auto; intros k' I; apply F; now right].
  assert (E : dset acc k v = acc ++ [(k, v)]).
  { specialize (F k (or_introl eq_refl)). clear - F. induction acc as [|[k' v'] acc IH]; simpl; [reflexivity|].
    destruct (String.eqb_spec k k') as [->|N]; [exfalso; apply F; now left|]. rewrite IH; [reflexivity|]. intros I. apply F. now right. }
  rewrite IH; [|exact N2|].
  - rewrite E, <- app_assoc. reflexivity.
  - intros k' I J. rewrite E in J. unfold dkeys in J. rewrite map_app in J. apply in_app_iff in J as [J|[J|[]]]; [apply (F k'); [now right|exact J]|simpl in J; congruence].
Qed.
Lemma NoDup_inter l m : NoDup l -> NoDup (intersection l m).
Proof. intros. now apply NoDup_filter. Qed.

(** ** One element *)
Lemma attr_text x d indent : e_dst x = Some d -> e_src x <> None -> NoDup (dkeys d) ->
  str_attrs x indent = String.concat "" (map (fun l : line => newline ++ spaces (indent + 2) ++ snd l)%string (attr_lines x 0)).
Proof.
  intros ED ES ND. unfold str_attrs, attr_lines, both_values, e_attrs_diffs. rewrite ED. destruct (e_src x) as [s|]; [|congruence]. simpl.
  set (ks := filter (attr_differs s d) (intersection (dkeys d) (dkeys s))).
  assert (NK : NoDup ks) by (apply NoDup_filter, NoDup_inter, ND). rewrite (pick_list s ks NK).
  assert (SP : forall n, spaces (n + 2) = (spaces n ++ "  ")%string) by (clear; induction n; simpl; congruence).
  assert (G : forall k, In k ks -> exists v v', dget s k = Some v /\ dget d k = Some v' /\ py_eq v v' = false).
  { intros k I. apply filter_In in I as [I A]. apply In_intersection in I as [I1 I2]. unfold attr_differs in A.
    destruct (dget s k) as [v|] eqn:E1; [|now apply dget_None in E1]. destruct (dget d k) as [v'|] eqn:E2; [|now apply dget_None in E2].
    exists v, v'. apply negb_true_iff in A. auto. }
  assert (MIN : forall k, In k ks -> dget (pick d ks) k = dget d k).
  { intros k I. rewrite dget_pick. assert (smem k ks = true) as ->; [now apply smem_In|reflexivity]. }
  set (tx := fun k v v' => (k ++ "    " ++ e_sname x ++ "(" ++ py_str v ++ ")" ++ "    " ++ e_dname x ++ "(" ++ py_str v' ++ ")")%string).
  assert (IN : forall (f : string -> val -> val -> line) l, (forall k, In k l -> In k (dkeys d)) ->
    flat_map (fun k => match (match dget s k, dget d k with Some v, Some v' => if py_eq v v' then None else Some (v, v') | _, _ => None end) with
                       | Some (v, v') => [f k v v']
                       | None => [] end) l =
    map (fun k => f k (match dget s k with Some v => v | None => VNone end) (match dget d k with Some v => v | None => VNone end))
      (filter (attr_differs s d) (intersection l (dkeys s)))).
  { clear. intros f l. induction l as [|k l IH]; intros IL; [reflexivity|]. simpl. rewrite IH by (intros k' I; apply IL; now right). unfold intersection. simpl.
    destruct (dget d k) as [v'|] eqn:E2; [|apply dget_None in E2; exfalso; apply E2, IL; now left].
    destruct (dget s k) as [v|] eqn:E1.
    - assert (smem k (dkeys s) = true) as -> by (apply smem_In; eapply dget_Some_key; eauto). cbn [filter]. unfold attr_differs at 2. rewrite E1, E2.
      destruct (py_eq v v'); simpl; [reflexivity|]. now rewrite E1, E2.
    - assert (smem k (dkeys s) = false) as ->; [|reflexivity]. destruct (smem k (dkeys s)) eqn:M; [|reflexivity]. apply smem_In in M. now apply dget_None in E1. }
  match goal with |- _ = String.concat "" (map ?g ?l) => transitivity (String.concat "" (map g (flat_map (fun k => match (match dget s k, dget d k with Some v, Some v' => if py_eq v v' then None else Some (v, v') | _, _ => None end) with | Some (v, v') => [(0, tx k v v')] | None => [] end) (dkeys d)))); [|reflexivity] end.
  rewrite (IN (fun k v v' => (0, tx k v v'))) by auto. fold ks. clear IN. clearbody ks. rewrite map_map. cbn [snd]. rewrite SP.
  set (mn := pick d ks) in *. clearbody mn.
  clear NK. induction ks as [|k ks IH]; [reflexivity|]. destruct (G k (or_introl eq_refl)) as (v & v' & E1 & E2 & _). cbn [flat_map map]. rewrite E1. cbn [List.app map]. rewrite !sconcat_cons, IH.
  - unfold tx. cbn [fst snd]. rewrite (MIN k (or_introl eq_refl)), E2. now rewrite !app_assoc_s.
  - intros k' I. apply G. now right.
  - intros k' I. apply MIN. now right.
Qed.
Lemma attr_lines_depth x n : attr_lines x n = map (fun l : line => (n, snd l)) (attr_lines x 0).
Proof.
  unfold attr_lines. destruct (e_dst x) as [d|]; [|reflexivity]. induction (dkeys d) as [|k l IH]; [reflexivity|]. cbn [flat_map]. rewrite IH, map_app.
  destruct (both_values x k) as [[v v']|]; reflexivity.
Qed.

(** ** The report *)
Scheme reports_min := Minimality for reports Sort Prop
  with members_min := Minimality for members Sort Prop.
Combined Scheme report_ind from reports_min, members_min.

Definition texts (indent : nat) (lss : list (list line)) : list string := map (fun ls => join newline (map (written indent) ls)) lss.
Definition flag_texts (indent : nat) (g : dict elem) : list (bool * string) := map (fun kv => (elem_has_diffs (snd kv), elem_str (snd kv) indent)) g.
Lemma elem_str_eq e indent : elem_str e indent = (spaces indent ++ e_type e ++ ": " ++ e_name e ++ str_attrs e indent ++
   (if groups_have_diffs (e_kids e)
    then newline ++ str_groups (indent + 2) (map (fun g => (fst g, flag_texts (indent + 2 + 2) (snd g))) (e_kids e))
    else match e_src e, e_dst e with None, None => " (no diffs)" | _, _ => "" end))%string.
Proof. destruct e; reflexivity. Qed.
Lemma spaces_plus a b : spaces (a + b) = (spaces a ++ spaces b)%string.
Proof. induction a; simpl; congruence. Qed.
Lemma texts_join indent lss : (forall ls, In ls lss -> ls <> []) -> join newline (texts indent lss) = join newline (map (written indent) (concat lss)).
Proof.
  intros H. unfold texts. rewrite <- (map_map (map (written indent)) (join newline)). rewrite join_flat, concat_map; [reflexivity|].
  intros ls I. apply in_map_iff in I as (l & <- & I). intros E. apply map_eq_nil in E. now apply (H l).
Qed.

Lemma occurs_tail x tg gs : occurs x gs -> occurs x (tg :: gs).
Proof. intros O. inversion O as [? t g n I1 I2|? t g n p I1 I2 O']; subst; [apply (occ_here x _ t g n)|apply (occ_below x _ t g n p)]; auto; now right. Qed.
Lemma report_text indent :
  (forall n gs ls, reports n gs ls -> attrs_once gs ->
     str_groups (indent + 2 * n) (map (fun g => (fst g, flag_texts (indent + 2 * n + 2) (snd g))) gs) =
     match ls with [] => "(no diffs)" | _ => join newline (map (written indent) ls) end /\
     (ls = [] <-> groups_have_diffs gs = false) /\
     exists lss, ls = concat lss /\ (forall l, In l lss -> l <> []) /\
       flat_map (fun g => match map snd (filter (fun hs : bool * string => fst hs) (snd g)) with [] => [] | l => (spaces (indent + 2 * n) ++ fst g)%string :: l end)
         (map (fun g => (fst g, flag_texts (indent + 2 * n + 2) (snd g))) gs) = texts indent lss /\
       (ls = [] \/ exists a b l, texts indent lss = a :: b :: l)) /\
  (forall n g ls, members n g ls -> (forall x d, In x (dvals g) -> e_dst x = Some d -> NoDup (dkeys d)) -> (forall x, In x (dvals g) -> attrs_once (e_kids x)) ->
     (ls = [] <-> existsb (fun kv => elem_has_diffs (snd kv)) g = false) /\
     exists lss, ls = concat lss /\ (forall l, In l lss -> l <> []) /\
       map snd (filter (fun hs : bool * string => fst hs) (flag_texts (indent + 2 * n) g)) = texts indent lss).
Proof.
  apply report_ind.
  - intros n _. split; [reflexivity|]. split; [simpl; tauto|]. exists []. simpl. repeat split; auto.
  - (* a group without changes *)
    intros n t g gs ls _ IHm _ IHr AO.
    assert (M1 : forall x d, In x (dvals g) -> e_dst x = Some d -> NoDup (dkeys d)).
    { intros x d I. unfold dvals in I. apply in_map_iff in I as ((m & y) & <- & I). apply (AO y). eapply occ_here; [now left|eauto]. }
    assert (M2 : forall x, In x (dvals g) -> attrs_once (e_kids x)).
    { intros x I y d O. unfold dvals in I. apply in_map_iff in I as ((m & z) & <- & I). apply (AO y). eapply occ_below; [now left|eauto|exact O]. }
    destruct (IHm M1 M2) as (Q & lss & E & NE & T). destruct IHr as (R1 & R2 & lss' & E' & NE' & T' & TW).
    { intros x d O. apply (AO x). now apply occurs_tail. }
    assert (NF : existsb (fun kv => elem_has_diffs (snd kv)) g = false) by now apply Q.
    assert (Z : lss = []). { destruct lss as [|l lss]; [reflexivity|]. exfalso. assert (l = []) by (destruct l; [reflexivity|discriminate]). apply (NE l); [now left|assumption]. }
    subst lss. change (texts indent []) with (@nil string) in T. replace (indent + 2 * S n) with (indent + 2 * n + 2) in T by lia. split; [|split].
    + rewrite <- R1. unfold str_groups. cbn [map flat_map fst snd]. rewrite T. reflexivity.
    + rewrite R2. unfold groups_have_diffs. simpl. rewrite NF. reflexivity.
    + exists lss'. split; [exact E'|]. split; [exact NE'|]. split; [|exact TW]. cbn [map flat_map fst snd]. rewrite T. exact T'.
  - intros n t g gs l l' ls _ IHm _ IHr AO.
    assert (M1 : forall x d, In x (dvals g) -> e_dst x = Some d -> NoDup (dkeys d)).
    { intros x d I. unfold dvals in I. apply in_map_iff in I as ((m & y) & <- & I). apply (AO y). eapply occ_here; [now left|eauto]. }
    assert (M2 : forall x, In x (dvals g) -> attrs_once (e_kids x)).
    { intros x I y d O. unfold dvals in I. apply in_map_iff in I as ((m & z) & <- & I). apply (AO y). eapply occ_below; [now left|eauto|exact O]. }
    destruct (IHm M1 M2) as (Q & lss & E & NE & T). destruct IHr as (R1 & R2 & lss' & E' & NE' & T' & TW).
    { intros x d O. apply (AO x). now apply occurs_tail. }
    assert (TR : existsb (fun kv => elem_has_diffs (snd kv)) g = true). { destruct (existsb _ g) eqn:B; [reflexivity|]. destruct Q as [_ Q]. specialize (Q eq_refl). discriminate. }
    replace (indent + 2 * S n) with (indent + 2 * n + 2) in T by lia.
    destruct lss as [|l0 lss]; [discriminate|].
    assert (NEW : flat_map (fun g0 => match map snd (filter (fun hs : bool * string => fst hs) (snd g0)) with [] => [] | l => (spaces (indent + 2 * n) ++ fst g0)%string :: l end)
         (map (fun g => (fst g, flag_texts (indent + 2 * n + 2) (snd g))) ((t, g) :: gs)) = texts indent ([(n, t)] :: (l0 :: lss) ++ lss')).
    { cbn [map flat_map fst snd]. rewrite T, T'. unfold texts, written. cbn [map List.app]. rewrite map_app. reflexivity. }
    assert (CC : concat ([(n, t)] :: (l0 :: lss) ++ lss') = (n, t) :: l :: l' ++ ls).
    { change (concat ([(n, t)] :: (l0 :: lss) ++ lss')) with ((n, t) :: concat ((l0 :: lss) ++ lss')). rewrite List.concat_app, <- E, <- E'. reflexivity. }
    assert (NN : forall x, In x ([(n, t)] :: (l0 :: lss) ++ lss') -> x <> []).
    { intros x [<-|I]; [discriminate|]. apply in_app_iff in I as [I|I]; auto. }
    split; [|split].
    + unfold str_groups. rewrite NEW. rewrite (texts_join indent _ NN). rewrite CC. cbn [map].
      pose proof (join2_newline (written indent (n, t)) (written indent l) (map (written indent) (l' ++ ls))) as J.
      destruct (join newline (written indent (n, t) :: written indent l :: map (written indent) (l' ++ ls))) eqn:JE; [discriminate|reflexivity].
    + unfold groups_have_diffs. simpl. rewrite TR. split; discriminate.
    + exists ([(n, t)] :: (l0 :: lss) ++ lss'). split; [now symmetry|]. split; [exact NN|]. split; [exact NEW|]. right. simpl. eauto.
  - intros n _ _. split; [simpl; tauto|]. exists []. simpl. auto.
  - intros n m x g ls ND NB _ IH M1 M2. assert (HF : elem_has_diffs x = false).
    { destruct (elem_has_diffs x) eqn:H; [|reflexivity]. apply has_diffs_iff in H as [H|(y & O & H)]; [now apply ND in H|now apply (NB y O) in H]. }
    destruct IH as (Q & lss & E & NE & T). { intros y d I. apply M1. simpl. auto. } { intros y I. apply M2. simpl. auto. }
    split; [simpl; rewrite HF; exact Q|]. exists lss. split; [exact E|]. split; [exact NE|]. unfold flag_texts in *. cbn [map snd filter]. rewrite HF. exact T.
  - intros n m x g below ls DF _ IHb _ IH M1 M2. assert (HT : elem_has_diffs x = true) by now apply has_diffs_iff.
    destruct IH as (Q & lss & E & NE & T). { intros y d I. apply M1. simpl. auto. } { intros y I. apply M2. simpl. auto. }
    assert (AK : attrs_once (e_kids x)) by (apply M2; simpl; auto). destruct (IHb AK) as (B1 & B2 & _).
    split; [split; [discriminate|simpl; rewrite HT; discriminate]|].
    exists (((n, title x) :: attr_lines x (S n) ++ below) :: lss). split; [simpl; rewrite <- E; now rewrite <- app_assoc|].
    split; [intros l [<-|I]; [discriminate|auto]|]. unfold flag_texts in T |- *. unfold texts in T |- *. cbn [map snd fst filter]. rewrite HT. cbn [map snd]. rewrite T. f_equal.
    rewrite elem_str_eq, join_cons. replace (indent + 2 * S n) with (indent + 2 * n + 2) in B1 by lia. rewrite B1.
    rewrite map_app, map_app, sconcat_app.
    assert (TI : forall rest, (spaces (indent + 2 * n) ++ e_type x ++ ": " ++ e_name x ++ str_attrs x (indent + 2 * n) ++ rest)%string =
      (written indent (n, title x) ++ String.concat "" (map (fun y => newline ++ y)%string (map (written indent) (attr_lines x (S n)))) ++ rest)%string).
    { intros rest. unfold written at 1, title. cbn [fst snd]. rewrite attr_lines_depth, !map_map. unfold written. cbn [fst snd].
      replace (indent + 2 * S n) with (indent + 2 * n + 2) by lia. rewrite !app_assoc_s. do 4 f_equal.
      destruct (e_src x) as [s|] eqn:ES, (e_dst x) as [d|] eqn:ED.
      - rewrite <- (attr_text x d (indent + 2 * n)); [reflexivity|exact ED|congruence|]. apply (M1 x); simpl; auto.
      - unfold str_attrs, attr_lines. rewrite ES, ED. simpl. reflexivity.
      - unfold str_attrs, attr_lines, both_values. rewrite ES, ED. simpl.
        replace (flat_map _ (dkeys d)) with (@nil line) by (induction (dkeys d); simpl; auto). simpl. reflexivity.
      - unfold str_attrs, attr_lines. rewrite ES, ED. reflexivity. }
    rewrite TI. f_equal. f_equal. destruct (groups_have_diffs (e_kids x)) eqn:GH.
    + destruct below as [|b below]; [exfalso; destruct B2 as [B2 _]; specialize (B2 eq_refl); discriminate|].
      cbn [map]. rewrite sconcat_cons, join_cons. reflexivity.
    + assert (below = []) as -> by now apply B2. simpl. destruct (e_src x) eqn:ES, (e_dst x) eqn:ED; try reflexivity.
      exfalso. apply has_diffs_iff in DF. rewrite elem_has_diffs_eq, GH, orb_false_r in DF. unfold own_diffs in DF. rewrite ES, ED in DF. discriminate.
Qed.

(** ** The report exists and is unique *)
Lemma differs_dec x : differs x \/ ~ differs x.
Proof. rewrite differs_action. destruct (e_action x); [left; discriminate|right; congruence]. Qed.
Lemma report_exists gs n : exists ls, reports n gs ls.
Proof.
  assert (M : forall g, (forall x m, In x (dvals g) -> exists ls, reports m (e_kids x) ls) -> forall m, exists ls, members m g ls).
  { induction g as [|[k x] g IH]; intros H m; [exists []; constructor|].
    destruct (IH (fun y m I => H y m (or_intror I)) m) as (ls & E). destruct (elem_has_diffs x) eqn:HD.
    - destruct (H x (S m) (or_introl eq_refl)) as (b & B). eexists. apply mem_diff; [now apply has_diffs_iff|exact B|exact E].
    - exists ls. apply mem_same; [| |exact E].
      + intros D. assert (elem_has_diffs x = true) by (apply has_diffs_iff; auto). congruence.
      + intros y O D. assert (elem_has_diffs x = true) by (apply has_diffs_iff; eauto). congruence. }
  assert (G : forall gs, (forall x m, In x (children gs) -> exists ls, reports m (e_kids x) ls) -> forall m, exists ls, reports m gs ls).
  { clear gs n. induction gs as [|[t g] gs IH]; intros H m; [exists []; constructor|].
    destruct (IH (fun y m I => H y m (in_or_app _ _ _ (or_intror I))) m) as (ls & E).
    destruct (M g (fun y m I => H y m (in_or_app _ _ _ (or_introl I))) (S m)) as ([|l l'] & E').
    - exists ls. now apply rep_quiet.
    - eexists. eapply rep_group; eauto. }
  apply G. intros x m _. revert m. induction x as [x IH] using elem_ind'. intros m. apply G. intros y m' I.
  apply In_children in I as (t & g & k & I1 & I2). eapply IH; eauto.
Qed.
Lemma report_unique :
  (forall n gs ls, reports n gs ls -> forall ls', reports n gs ls' -> ls' = ls) /\
  (forall n g ls, members n g ls -> forall ls', members n g ls' -> ls' = ls).
Proof.
  apply report_ind.
  - intros n ls' H. now inversion H.
  - intros n t g gs ls _ IHm _ IHr ls' H. inversion H; subst; [auto|]. match goal with X : members _ _ (_ :: _) |- _ => apply IHm in X; discriminate end.
  - intros n t g gs l l' ls _ IHm _ IHr ls' H. inversion H as [|? ? ? ? ? X Y|? ? ? ? ? ? ? X Y]; subst; [apply IHm in X; discriminate|].
    apply IHm in X. apply IHr in Y. congruence.
  - intros n ls' H. now inversion H.
  - intros n m x g ls ND NB _ IH ls' H. inversion H as [| |? ? ? ? ? ? [D|(y & O & D)]]; subst; [auto|now apply ND in D|now apply (NB y) in D].
  - intros n m x g b ls D _ IHb _ IH ls' H. inversion H as [|? ? ? ? ? N1 N2|? ? ? ? ? ? _ X Y]; subst.
    + destruct D as [D|(y & O & D)]; [now apply N1 in D|now apply (N2 y) in D].
    + apply IHb in X. apply IH in Y. congruence.
Qed.

Lemma str_report d indent ls : attrs_once (d_groups d) -> reports 0 (d_groups d) ls ->
  diff_str d indent = match ls with [] => "(no diffs)" | _ => join newline (map (written indent) ls) end.
Proof.
  intros AO R. destruct (proj1 (report_text indent) 0 _ ls R AO) as (E & _). rewrite Nat.mul_0_r, Nat.add_0_r in E. exact E.
Qed.
Lemma members_nothing m g : members m g [] <-> forall k y, In (k, y) g -> ~ differs y /\ (forall z, occurs z (e_kids y) -> ~ differs z).
Proof.
  induction g as [|[k x] g IH]; [split; [intros _ ? ? []|constructor]|]. split.
  - intros M k' y I. inversion M; subst. destruct I as [E|I]; [injection E as <- <-; auto|]. now apply (proj1 IH) with k'.
  - intros H. destruct (H k x (or_introl eq_refl)) as [H1 H2]. apply mem_same; [exact H1|exact H2|]. apply IH. intros k' y I. apply (H k'). now right.
Qed.
Lemma reports_nothing n gs : reports n gs [] <-> forall t g, In (t, g) gs -> members (S n) g [].
Proof.
  induction gs as [|[t g] gs IH]; [split; [intros _ ? ? []|constructor]|]. split.
  - intros R t' g' I. inversion R; subst. destruct I as [E|I]; [injection E as <- <-; auto|]. now apply (proj1 IH) with t'.
  - intros H. apply rep_quiet; [apply (H t); now left|]. apply IH. intros t' g' I. apply (H t'). now right.
Qed.
Lemma report_nothing gs n : reports n gs [] <-> forall x, occurs x gs -> ~ differs x.
Proof.
  rewrite reports_nothing. split.
  - intros H x O. inversion O as [? t g k I J|? t g k p I J K]; subst; specialize (H t g I); rewrite members_nothing in H; specialize (H k _ J); destruct H as [H1 H2]; auto.
  - intros H t g I. apply members_nothing. intros k y J. split; [|intros z O]; apply H; [eapply occ_here|eapply occ_below]; eauto.
Qed.
