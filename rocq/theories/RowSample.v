(** * RowSample: checking the conditions on concrete records. *)
From Verif Require Export RowEnd.

Section Check.
  Variables (cs : dict cls) (tops : list string).
  Definition rclass (x : row) : option cls := dget cs (r_type x).
  Fixpoint parentsb (l rows : list row) : bool :=
    match rows with
    | [] => true
    | x :: m => match r_parent x with
                | None => smem (r_type x) tops
                | Some p => negb (smem (r_type x) tops) &&
                    existsb (fun y => keyb (row_key cs y) p && match rclass y with Some c => smem (r_type x) (map fst (c_children c)) | None => false end) l
                end && parentsb (l ++ [x]) m
    end.
  Fixpoint keys_onceb (l : list key) : bool :=
    match l with [] => true | k :: m => negb (existsb (keyb k) m) && keys_onceb m end.
  Definition datasetb (rows : list row) : bool :=
    forallb (fun x => match rclass x with
                      | Some c => String.eqb (c_modelname c) (r_type x) && creatableb c &&
                          forallb (fun fd => match snd fd with None => dmem (r_kw x) (fst fd) | Some _ => true end) (c_fields c)
                      | None => false
                      end) rows && keys_onceb (map (row_key cs) rows) && parentsb [] rows.
  Lemma keys_once_ok l : keys_onceb l = true -> NoDup l.
  Proof.
    induction l as [|k l IH]; [constructor|]. cbn [keys_onceb]. rewrite andb_true_iff, negb_true_iff. intros (A & B). constructor; [|auto]. intros I.
    assert (X : existsb (keyb k) l = true) by (apply existsb_exists; exists k; split; [exact I|now apply keyb_ok]). congruence.
  Qed.
  Lemma parents_ok m : forall l, parentsb l m = true -> forall l2 x m2, m = l2 ++ x :: m2 ->
    match r_parent x with
    | None => In (r_type x) tops
    | Some p => ~ In (r_type x) tops /\ exists y c, In y (l ++ l2) /\ row_key cs y = p /\ dget cs (r_type y) = Some c /\ In (r_type x) (map fst (c_children c))
    end.
  Proof.
    induction m as [|z m IH]; intros l H l2 x m2 E; [destruct l2; discriminate|]. cbn [parentsb] in H. apply andb_true_iff in H as (H & HR). destruct l2 as [|z2 l2]; injection E as -> E.
    - rewrite app_nil_r. destruct (r_parent x) as [p|]; [|now apply smem_In]. apply andb_true_iff in H as (H1 & H2). split; [intros I; apply smem_In in I; rewrite I in H1; discriminate|].
      apply existsb_exists in H2 as (y & Iy & H2). apply andb_true_iff in H2 as (Ky & H2). apply keyb_ok in Ky. unfold rclass in H2. destruct (dget cs (r_type y)) as [c|] eqn:D; [|discriminate].
      exists y, c. split; [exact Iy|]. split; [exact Ky|]. split; [exact D|]. now apply smem_In.
    - specialize (IH (l ++ [z2]) HR l2 x m2 E). rewrite <- app_assoc in IH. exact IH.
  Qed.
  Lemma dataset_ok rows : datasetb rows = true -> dataset cs tops rows.
  Proof.
    unfold datasetb. rewrite !andb_true_iff, forallb_forall. intros ((H1 & H2) & H3). split.
    - intros x I. specialize (H1 x I). unfold rclass in H1. destruct (dget cs (r_type x)) as [c|]; [|discriminate]. rewrite !andb_true_iff, forallb_forall in H1. destruct H1 as ((A & B) & C).
      exists c. split; [reflexivity|]. split; [now apply String.eqb_eq|]. split; [now apply creatableb_ok|]. intros f If E. specialize (C _ If). cbn [fst snd] in C. unfold dmem in C. rewrite E in C. discriminate.
    - now apply keys_once_ok.
    - intros l x m E. pose proof (parents_ok rows [] H3 l x m E) as P. exact P.
  Qed.
  Definition properb (rows : list row) : bool :=
    forallb (fun x => match rclass x with
                      | Some c => forallb (fun f => match value_in c (r_kw x) f with Some v => py_eq v v | None => false end) (c_identifiers c ++ c_attributes c)
                      | None => true
                      end) rows.
  Lemma proper_ok rows : properb rows = true -> proper_values cs rows.
  Proof.
    unfold properb. rewrite forallb_forall. intros H x c f I D If. specialize (H x I). unfold rclass in H. rewrite D, forallb_forall in H. specialize (H f If).
    destruct (value_in c (r_kw x) f) as [v|]; [eauto|discriminate].
  Qed.
  Definition shallowb (rk : string -> nat) (rows : list row) (n : nat) : bool :=
    forallb (fun x => Nat.ltb (rk (r_type x)) n && match r_parent x with Some p => Nat.ltb (rk (fst p)) (rk (r_type x)) | None => true end) rows.
  Lemma shallow_ok rk rows n : shallowb rk rows n = true -> shallow cs rows n.
  Proof.
    unfold shallowb. rewrite forallb_forall. intros H. exists (fun k => rk (fst k)). intros x I. specialize (H x I). apply andb_true_iff in H as (A & B). split; [now apply Nat.ltb_lt|].
    intros p E. rewrite E in B. now apply Nat.ltb_lt.
  Qed.
  Definition no_flagsb (rows : list row) : bool := forallb (fun x => match rclass x with Some c => N.eqb (c_flags c) 0 | None => true end) rows.
  Lemma no_flags_ok rows : no_flagsb rows = true -> no_flags cs rows.
  Proof. unfold no_flagsb. rewrite forallb_forall. intros H x c I D. specialize (H x I). unfold rclass in H. rewrite D in H. now apply N.eqb_eq. Qed.
End Check.

Definition same_strb (a b : option val) : bool := match a, b with Some (VStr x), Some (VStr y) => String.eqb x y | _, _ => false end.
Lemma same_strb_ok a b : same_strb a b = true -> a = b.
Proof. destruct a as [[]|], b as [[]|]; try discriminate. intros H. apply String.eqb_eq in H. now subst. Qed.
Definition sameb (a b : option key) : bool := match a, b with Some x, Some y => keyb x y | None, None => true | _, _ => false end.
Lemma sameb_ok a b : sameb a b = true <-> a = b.
Proof. destruct a as [x|], b as [y|]; cbn [sameb]; try (split; [discriminate|congruence]); [|tauto]. rewrite keyb_ok. split; congruence. Qed.

Definition matchingb (cs cs' : dict cls) (rows rows' : list row) : bool :=
  let all := map (fun x => (cs, x)) rows ++ map (fun x => (cs', x)) rows' in
  forallb (fun x => match rclass cs x with
                    | Some c => match rclass cs' x with
                                | Some c' => String.eqb (c_modelname c') (r_type x) && same_shapeb c' c && creatableb c'
                                | None => false
                                end
                    | None => true
                    end) rows &&
  forallb (fun x => forallb (fun y => negb (keyb (row_key cs x) (row_key cs' y)) ||
      (sameb (r_parent x) (r_parent y) &&
       match rclass cs x, rclass cs' y with
       | Some c, Some c' => forallb (fun f => same_strb (value_in c (r_kw x) f) (value_in c' (r_kw y) f)) (c_identifiers c)
       | _, _ => true
       end)) rows') rows &&
  forallb (fun p => forallb (fun q => negb (String.eqb (r_type (snd p)) (r_type (snd q)) && sameb (r_parent (snd p)) (r_parent (snd q)) &&
      String.eqb (row_name (fst p) (snd p)) (row_name (fst q) (snd q))) || keyb (row_key (fst p) (snd p)) (row_key (fst q) (snd q))) all) all.
Lemma matching_ok cs cs' rows rows' : matchingb cs cs' rows rows' = true -> matching cs cs' rows rows'.
Proof.
  unfold matchingb. rewrite !andb_true_iff, !forallb_forall. intros ((H1 & H2) & H3).
  assert (X : forall x y, In x rows -> In y rows' -> row_key cs x = row_key cs' y -> sameb (r_parent x) (r_parent y) &&
       match rclass cs x, rclass cs' y with
       | Some c, Some c' => forallb (fun f => same_strb (value_in c (r_kw x) f) (value_in c' (r_kw y) f)) (c_identifiers c)
       | _, _ => true
       end = true).
  { intros x y I J E. specialize (H2 x I). rewrite forallb_forall in H2. specialize (H2 y J). apply keyb_ok in E. rewrite E in H2. exact H2. }
  split.
  - intros x c I D. specialize (H1 x I). unfold rclass in H1. rewrite D in H1. destruct (dget cs' (r_type x)) as [c'|]; [|discriminate]. rewrite !andb_true_iff in H1. destruct H1 as ((A & B) & C).
    exists c'. split; [reflexivity|]. split; [now apply String.eqb_eq|]. split; [now apply same_shapeb_ok|now apply creatableb_ok].
  - intros x y c c' f I J E D D' If. specialize (X x y I J E). apply andb_true_iff in X as (_ & X). unfold rclass in X. rewrite D, D', forallb_forall in X. apply same_strb_ok. auto.
  - intros x y I J E. specialize (X x y I J E). apply andb_true_iff in X as (X & _). now apply sameb_ok.
  - intros all p q I J ET EP EN. specialize (H3 p I). rewrite forallb_forall in H3. specialize (H3 q J). rewrite ET, String.eqb_refl, EN, String.eqb_refl, (proj2 (sameb_ok _ _) EP) in H3.
    cbn [andb negb orb] in H3. now apply keyb_ok.
Qed.
