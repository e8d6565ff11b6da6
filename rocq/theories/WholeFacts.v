(** * WholeFacts: in a computed diff, everything below a deletion is a deletion. *)
From Verif Require Export ClassRules.

Lemma Ok_eq {A} (x y : A) : Ok x = Ok y -> x = y.
Proof. intros E. now injection E. Qed.

Section Yields.
  Context {S : Type}.
  Definition yields {A} (m : M S A) (P : A -> Prop) : Prop := forall s a, snd (m s) = Ok a -> P a.
  Lemma y_bind {A B} (m : M S A) (k : A -> M S B) P Q : yields m P -> (forall a, P a -> yields (k a) Q) -> yields (bind m k) Q.
  Proof. intros H1 H2 s b. unfold bind. specialize (H1 s). destruct (m s) as [s1 [a|e]]; [|discriminate]. apply H2. now apply H1. Qed.
  Lemma y_any {A} (m : M S A) : yields m (fun _ => True).
  Proof. intros s a _. exact I. Qed.
  Lemma y_ret {A} (a : A) (P : A -> Prop) : P a -> yields (ret a) P.
  Proof. intros H s b E. apply Ok_eq in E. now subst. Qed.
  Lemma y_raise {A} e (P : A -> Prop) : yields (@raise S A e) P.
  Proof. intros s b E. discriminate. Qed.
  Lemma y_lift {A} (r : result A) : yields (lift r) (fun a => r = Ok a).
  Proof. intros s a E. exact E. Qed.
End Yields.

Definition gone (e : elem) : Prop := e_src e = None /\ e_dst e <> None.
Definition whole (x : elem) : Prop := e_src x = None -> forall k, In k (children (e_kids x)) -> gone k.
Definition all_in (P : elem -> Prop) (es : list elem) : Prop := forall e x, In e es -> In x (elem_all e) -> P x.

Lemma groups_add_in gs e gs' : groups_add gs e = Ok gs' -> forall x, In x (children gs') -> x = e \/ In x (children gs).
Proof.
  unfold groups_add. destruct (dmem _ _); [discriminate|]. intros E x I. apply Ok_eq in E. subst gs'.
  apply In_children in I as (t & g & n & I1 & I2).
  apply SyncFacts.In_dset in I1 as [I1|E].
  2: subst g; apply SyncFacts.In_dset in I2 as [I2|E]; [|now left]; right.
  2: {
    unfold group_of in I2. destruct (dget gs (e_type e)) as [g|] eqn:G; [|destruct I2]. apply dget_Some_In in G. apply In_children. eauto. }
  right. apply In_children. eauto.
Qed.
Lemma add_elems_in es : forall gs gs', add_elems gs es = Ok gs' -> forall x, In x (children gs') -> In x es \/ In x (children gs).
Proof.
  induction es as [|e es IH]; intros gs gs' E x I; simpl in E.
  - apply Ok_eq in E. subst. auto.
  - destruct (groups_add gs e) as [g1|] eqn:G; [|discriminate]. simpl in E. destruct (IH _ _ E x I) as [H|H]; [left; now right|].
    destruct (groups_add_in _ _ _ G x H) as [->|H']; [left; now left|auto].
Qed.
Lemma add_elems_all P es gs gs' : add_elems gs es = Ok gs' -> all_in P es -> all_in P (children gs) -> all_in P (children gs').
Proof. intros E H1 H2 e x I J. destruct (add_elems_in _ _ _ E e I); eauto. Qed.

Definition both_ok (ss : list obj) (es : list elem) : Prop := all_in whole es /\ (ss = [] -> all_in gone es).

Lemma all_cons P e es : all_in P [e] -> all_in P es -> all_in P (e :: es).
Proof. intros H1 H2 x y [->|I] J; [apply (H1 x y); [now left|exact J]|eauto]. Qed.
Lemma all_nil P : all_in P [].
Proof. intros e x []. Qed.
Lemma elem_all_kids e x : In x (elem_all e) -> x = e \/ exists k, In k (children (e_kids e)) /\ In x (elem_all k).
Proof. intros H. apply In_elem_all_iff in H as [H|H]; [now left|]. right. now apply occurs_children. Qed.

Section Step.
  Variables (env : denv) (rec : list obj -> list obj -> M dstate (list elem)).
  Hypothesis REC : forall ss dd, yields (rec ss dd) (both_ok ss).

  Lemma child_types_whole so do mapping : forall gs, all_in whole (children gs) -> (so = None -> all_in gone (children gs)) ->
    yields (diff_child_types env rec so do mapping gs) (fun gs' => all_in whole (children gs') /\ (so = None -> all_in gone (children gs'))).
  Proof.
    induction mapping as [|[t f] mp IH]; intros gs H1 H2; cbn [diff_child_types]; [apply y_ret; auto|].
    apply y_bind with (P := fun ss => so = None -> ss = []).
    { destruct so; intros s a; [discriminate|]. intros E _. now apply Ok_eq in E. }
    intros ss HS. eapply y_bind; [apply y_any|]. intros dd _. eapply y_bind; [apply REC|]. intros es [E1 E2].
    eapply y_bind; [apply y_lift|]. intros gs' E. apply IH.
    - exact (add_elems_all _ _ _ _ E E1 H1).
    - intros N. exact (add_elems_all _ _ _ _ E (E2 (HS N)) (H2 N)).
  Qed.
  Lemma pair_whole so do : yields (diff_object_pair env rec so do)
    (fun r => match r with Some e => all_in whole [e] /\ (so = None -> all_in gone [e]) | None => True end).
  Proof.
    unfold diff_object_pair. destruct (match so with Some s => Some s | None => do end) as [o|] eqn:EO; [|apply y_raise].
    eapply y_bind; [apply y_any|]. intros _ _. eapply y_bind; [apply y_any|]. intros name _.
    destruct (skip_pair _ _ _); (eapply y_bind; [apply y_any|]; intros _ _); [now apply y_ret|].
    eapply y_bind; [apply y_any|]. intros mapping _. eapply y_bind; [apply child_types_whole; intros; apply all_nil|].
    intros gs [H1 H2]. apply y_ret. split.
    - intros e x [<-|[]] J. destruct (elem_all_kids _ _ J) as [->|(k & K1 & K2)].
      + intros N k K. cbn [e_src e_kids] in *. destruct so; [discriminate|]. apply (H2 eq_refl k k K). apply In_elem_all_iff. now left.
      + eapply H1; eauto.
    - intros -> e x [<-|[]] J. destruct (elem_all_kids _ _ J) as [->|(k & K1 & K2)].
      + split; [reflexivity|]. cbn [e_dst]. destruct do; discriminate.
      + eapply H2; eauto.
  Qed.
  Lemma pairs_whole l : yields (diff_pairs env rec l)
    (fun es => all_in whole es /\ ((forall u so do, In (u, (so, do)) l -> so = None) -> all_in gone es)).
  Proof.
    induction l as [|[u [so do]] l IH]; cbn [diff_pairs]; [apply y_ret; split; intros; apply all_nil|].
    eapply y_bind; [apply pair_whole|]. intros r HR. eapply y_bind; [apply IH|]. intros es [H1 H2]. apply y_ret.
    destruct r as [e|].
    - destruct HR as [R1 R2]. split; [now apply all_cons|]. intros N. apply all_cons; [apply R2; eapply N; now left|].
      apply H2. intros u' so' do' I. apply (N u' so' do'). now right.
    - split; [exact H1|]. intros N. apply H2. intros u' so' do' I. apply (N u' so' do'). now right.
  Qed.
  Lemma body_whole ss dd : yields (diff_list_body env rec ss dd) (both_ok ss).
  Proof.
    unfold diff_list_body. eapply y_bind; [apply y_lift|]. intros di E1. eapply y_bind; [apply y_lift|]. intros ddi E2.
    cbv zeta. eapply y_bind; [apply y_any|]. intros _ _. eapply y_bind; [apply y_any|]. intros _ _.
    intros s es E. destruct (pairs_whole (pair_up di ddi) s es E) as [H1 H2]. split; [exact H1|].
    intros ->. apply H2. intros u so do I. simpl in E1. apply Ok_eq in E1. subst di. clear - I.
    unfold pair_up in I. simpl in I.
    assert (G : forall ks c, (forall u so do, In (u, (so, do)) c -> so = None) ->
       In (u, (so, do)) (fold_left (fun (c : dict (option obj * option obj)) (uid : string) => dset c uid (None, dget ddi uid)) ks c) -> so = None).
    { induction ks as [|k ks IH]; intros c Hc; cbn [fold_left]; [apply Hc|]. apply IH. intros u' so' do' I'.
      apply SyncFacts.In_dset in I' as [I'|E']; [eauto|now injection E']. }
    eapply G; [|exact I]. intros ? ? ? [].
  Qed.
End Step.
Lemma list_whole fuel env : forall ss dd, yields (diff_object_list fuel env ss dd) (both_ok ss).
Proof. induction fuel as [|fuel IH]; intros ss dd; cbn [diff_object_list]; [apply y_raise|]. now apply body_whole. Qed.
Lemma types_whole fuel env ts : forall gs, all_in whole (children gs) -> yields (diff_types fuel env ts gs) (fun gs' => all_in whole (children gs')).
Proof.
  induction ts as [|t ts IH]; intros gs H; cbn [diff_types]; [now apply y_ret|].
  eapply y_bind; [apply y_any|]. intros ss _. eapply y_bind; [apply y_any|]. intros dd _. eapply y_bind; [apply list_whole|]. intros es [E1 _].
  eapply y_bind; [apply y_lift|]. intros gs' E. apply IH. exact (add_elems_all _ _ _ _ E E1 H).
Qed.
Lemma computed_whole fuel dst src dc flags cb w d : snd (diff_from fuel dst src dc flags cb w) = Ok d -> deletes_whole (d_groups d).
Proof.
  intros H. assert (X : all_in whole (children (d_groups d))).
  { unfold diff_from, bind in H. unfold get_adapter in H. destruct (nth_error (w_ads w) src) as [sa|]; [|discriminate].
    destruct (nth_error (w_ads w) dst) as [da|]; [|discriminate]. cbn [get_state snd fst] in H.
    set (env := mkEnv _ _ _ _ _ _ _) in H.
    assert (Y : yields (calculate_diffs fuel env dc (ad_top da) (ad_top sa)) (fun d => all_in whole (children (d_groups d)))).
    { unfold calculate_diffs. eapply y_bind; [apply y_any|]. intros _ _. eapply y_bind; [apply types_whole, all_nil|]. intros gs HG.
      eapply y_bind; [apply y_any|]. intros s _. now apply y_ret. }
    exact (Y _ _ H). }
  intros e k O A I. apply occurs_children in O as (x & Ix & Jx). specialize (X x e Ix Jx).
  apply action_delete in A as [A _]. apply action_delete. apply (X A k I).
Qed.
