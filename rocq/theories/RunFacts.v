(** * RunFacts: what the courses of RunSpec have in common. *)
From Verif Require Export CallSpec SyncTrace.
Lemma crud_list x : is_crud x = true <-> crud_exception x.
Proof.
  unfold crud_exception. destruct x; cbn; intuition (try discriminate).
Qed.
Lemma not_crud_list x : is_crud x = false <-> ~ crud_exception x.
Proof. rewrite <- crud_list. destruct (is_crud x); intuition discriminate. Qed.

Section Facts.
  Variables (flags : N) (cb : bool) (total : nat).
  Variable Ends : event -> callend -> Prop.
  Variable Has : elem -> obj -> Prop.
  Variable Lacks : elem -> Prop.
  Variable clsof : elem -> option cls.
  Variable ord : order_fn.
  Notation Run := (run_of flags cb total Ends Has Lacks clsof ord).
  Notation One := (one flags cb total Ends Has Lacks clsof).
  Notation Attempt := (attempt flags Ends Has Lacks).

  Lemma run_eq e : Run e = One e (ordered ord Run (e_kids e)).
  Proof. destruct e; reflexivity. Qed.
  Lemma kids_run gs : ordered ord Run gs = map Run (ordered ord (fun e => e) gs).
  Proof. apply ordered_map. Qed.
  Lemma kid_occ gs x : In x (ordered ord (fun e => e) gs) -> In x (children gs).
  Proof. apply ordered_sub. Qed.

  (** ** Callbacks *)
  Definition ticks (n n' : nat) : list event := if cb then map (fun i => EvCallback "sync" i total) (seq (S n) (n' - n)) else [].
  Definition counted (n : nat) (evs : list event) (n' : nat) : Prop :=
    n <= n' /\ filter sync_callback evs = ticks n n'.
  Lemma counted_nil n : counted n [] n.
  Proof. split; [lia|]. unfold ticks. rewrite Nat.sub_diag. now destruct cb. Qed.
  Lemma counted_app n e1 n1 e2 n2 : counted n e1 n1 -> counted n1 e2 n2 -> counted n (e1 ++ e2) n2.
  Proof.
    intros [L1 H1] [L2 H2]. split; [lia|]. rewrite filter_app, H1, H2. unfold ticks. destruct cb; [|reflexivity].
    rewrite <- map_app. f_equal. replace (n2 - n) with ((n1 - n) + (n2 - n1)) by lia. rewrite seq_app. f_equal. f_equal. lia.
  Qed.
  Lemma counted_none n evs : filter sync_callback evs = [] -> counted n evs n.
  Proof. intros H. destruct (counted_nil n) as [L E]. split; [exact L|]. rewrite H. exact E. Qed.
  Lemma counted_progress n : counted n (progress cb total (S n)) (S n).
  Proof. split; [lia|]. unfold ticks, progress. replace (S n - n) with 1 by lia. now destruct cb. Qed.

  Lemma hook_no_tick ev : hookb ev = true -> sync_callback ev = false.
  Proof. now destruct ev. Qed.
  Lemma call_hook e c f call : call_of Has e c f call -> exists a t i at_, call = EvHook a t i at_.
  Proof.
    clear Ends Lacks clsof ord.
    unfold call_of. destruct (e_action e) as [[]|]; [intros (_ & ->); eauto 6|intros (_ & o & _ & ->); eauto 6|intros (_ & o & _ & ->); eauto 6|tauto].
  Qed.
  Lemma attempt_no_tick e c ctx f evs v : Attempt e c ctx f evs v -> filter sync_callback evs = [].
  Proof.
    destruct 1 as [v HA _|call st msg HC _|call msg HC _|a HA _ _|call x HC _ _|call x HC _|x _]; try reflexivity;
      try (destruct (call_hook _ _ _ _ HC) as (? & ? & ? & ? & ->); reflexivity).
    unfold unchanged_log. now destruct N.testbit.
  Qed.
  Lemma missing_no_tick evs : Forall missing_child evs -> filter sync_callback evs = [].
  Proof. induction 1 as [|ev evs H _ IH]; [reflexivity|]. simpl. rewrite H. exact IH. Qed.

  Lemma steps_counted cs : Forall (fun C : course => forall n evs n' r, C n evs n' r -> counted n evs n') cs ->
    forall n b evs n' r, steps cs n b evs n' r -> counted n evs n'.
  Proof.
    intros HF n b evs n' r H. induction H as [n b|C cs n b ev1 n1 b1 ev2 n2 r H1 H2 IH|C cs n b ev n1 x H1].
    - apply counted_nil.
    - inversion HF; subst. eapply counted_app; eauto.
    - inversion HF; subst. eauto.
  Qed.

  Lemma run_counted : forall e n evs n' r, Run e n evs n' r -> counted n evs n'.
  Proof.
    induction e as [e IH] using elem_ind'. intros n evs n' r. rewrite run_eq, kids_run.
    assert (HK : forall n b evs n' r, steps (map Run (ordered ord (fun x => x) (e_kids e))) n b evs n' r -> counted n evs n').
    { apply steps_counted. apply Forall_forall. intros C HC. apply in_map_iff in HC as (x & <- & Hx). apply kid_occ, In_children in Hx as (t & g & m & I1 & I2).
      eauto. }
    set (kids := map Run _) in *. clearbody kids. clear IH.
    intros H. destruct H as [x _|evs n' x _ _ H|c u found nat1 evk nk ctx eva v evr n' r _ _ HB _ _ HAT HAF].
    - apply counted_nil.
    - eauto.
    - eapply counted_app with (n1 := nk).
      + unfold before in HB. destruct nat1; [destruct HB as (_ & _ & b & H); eauto|destruct HB as (-> & -> & _); apply counted_nil].
      + eapply counted_app; [apply counted_none; eapply attempt_no_tick; eauto|].
        destruct HAF as [x| |evs x _ HM _|evs o _ _ _ HM|evs n' r _ _ HS|_].
        * apply counted_nil.
        * now apply counted_none.
        * apply counted_none. now apply missing_no_tick.
        * apply counted_none. now apply missing_no_tick.
        * eapply counted_app; [apply counted_progress|eauto].
        * apply counted_progress.
  Qed.

  (** never more than there are elements *)
  Lemma steps_bound cs es : Forall2 (fun (C : course) e => forall n evs n' r, C n evs n' r -> n' <= n + elem_len ord e) cs es ->
    forall n b evs n' r, steps cs n b evs n' r -> n' <= n + list_sum (map (elem_len ord) es).
  Proof.
    intros HF n b evs n' r H. revert es HF. induction H as [n b|C cs n b ev1 n1 b1 ev2 n2 r H1 H2 IH|C cs n b ev n1 x H1]; intros es HF.
    - lia.
    - inversion HF as [|? e ? es' Q1 Q2]; subst. cbn [map]. rewrite list_sum_cons. specialize (IH _ Q2). apply Q1 in H1. lia.
    - inversion HF as [|? e ? es' Q1 Q2]; subst. cbn [map]. rewrite list_sum_cons. apply Q1 in H1. lia.
  Qed.
  Lemma elem_len_eq e : elem_len ord e = 1 + list_sum (map (elem_len ord) (ordered ord (fun x => x) (e_kids e))).
  Proof. rewrite <- ordered_map. destruct e; reflexivity. Qed.
  Lemma Forall2_map_self {A B} (f : A -> B) (P : B -> A -> Prop) l : (forall x, In x l -> P (f x) x) -> Forall2 P (map f l) l.
  Proof. induction l as [|x l IH]; intros H; cbn [map]; constructor; [apply H; now left|]. apply IH. intros y Hy. apply H. now right. Qed.

  Lemma run_bound : forall e n evs n' r, Run e n evs n' r -> n' <= n + elem_len ord e.
  Proof.
    induction e as [e IH] using elem_ind'. intros n evs n' r. rewrite run_eq, kids_run, elem_len_eq.
    assert (HK : forall n b evs n' r, steps (map Run (ordered ord (fun x => x) (e_kids e))) n b evs n' r ->
        n' <= n + list_sum (map (elem_len ord) (ordered ord (fun x => x) (e_kids e)))).
    { apply steps_bound. apply Forall2_map_self. intros x Hx. apply kid_occ, In_children in Hx as (t & g & m & I1 & I2). eauto. }
    set (L := list_sum _) in *. clearbody L. set (kids := map Run _) in *. clearbody kids. clear IH.
    intros H. destruct H as [x _|evs n' x _ _ H|c u found nat1 evk nk ctx eva v evr n' r _ _ HB _ _ HAT HAF].
    - lia.
    - apply HK in H. lia.
    - unfold before in HB. destruct HAF as [x| |evs x _ HM _|evs o _ _ _ HM|evs n' r -> _ HS| ->].
      1-4: destruct nat1; [destruct HB as (_ & _ & b & H); apply HK in H; lia|destruct HB as (_ & -> & _); lia].
      + destruct HB as (_ & -> & _). apply HK in HS. lia.
      + destruct HB as (_ & _ & b & H). apply HK in H. lia.
  Qed.

  (** ** sync_complete is not called by the elements *)
  Lemma attempt_no_complete e c ctx f evs v : Attempt e c ctx f evs v -> filter completeb evs = [].
  Proof.
    destruct 1 as [v HA _|call st msg HC _|call msg HC _|a HA _ _|call x HC _ _|call x HC _|x _]; try reflexivity;
      try (destruct (call_hook _ _ _ _ HC) as (? & ? & ? & ? & ->); reflexivity).
    unfold unchanged_log. now destruct N.testbit.
  Qed.
  Lemma missing_no_complete evs : Forall missing_child evs -> filter completeb evs = [].
  Proof. induction 1 as [|ev evs H _ IH]; [reflexivity|]. simpl. rewrite H. exact IH. Qed.
  Lemma progress_no_complete n : filter completeb (progress cb total n) = [].
  Proof. unfold progress. now destruct cb. Qed.

  (** ** Whether anything was attempted *)
  Definition marks (b0 b : bool) (evs : list event) : Prop := b = true <-> (b0 = true \/ exists ev, In ev evs /\ attempted ev).
  Definition plain (n : nat) (evs : list event) (n' : nat) (r : result bool) : Prop :=
    filter completeb evs = [] /\ forall b, r = Ok b -> marks false b evs.

  Lemma steps_plain cs : Forall (fun C : course => forall n evs n' r, C n evs n' r -> plain n evs n' r) cs ->
    forall n b evs n' r, steps cs n b evs n' r -> filter completeb evs = [] /\ forall b', r = Ok b' -> marks b b' evs.
  Proof.
    intros HF n b evs n' r H. induction H as [n b|C cs n b ev1 n1 b1 ev2 n2 r H1 H2 IH|C cs n b ev n1 x H1].
    - split; [reflexivity|]. intros b' E. injection E as <-. unfold marks. split; [auto|]. intros [H|(ev & [] & _)]. exact H.
    - inversion HF as [|? ? P1 P2]; subst. destruct (P1 _ _ _ _ H1) as [Q1 Q2]. destruct (IH P2) as [Q3 Q4]. split.
      + now rewrite filter_app, Q1, Q3.
      + intros b' E. specialize (Q4 b' E). specialize (Q2 b1 eq_refl). unfold marks in *. rewrite Q4, orb_true_iff, Q2. split.
        * intros [[H|[H|(ev & I & A)]]|(ev & I & A)]; [now left|discriminate|right; exists ev; rewrite in_app_iff; auto|right; exists ev; rewrite in_app_iff; auto].
        * intros [H|(ev & I & A)]; [auto|]. rewrite in_app_iff in I. destruct I as [I|I]; [left; right; right; eauto|right; eauto].
    - inversion HF as [|? ? P1 P2]; subst. destruct (P1 _ _ _ _ H1) as [Q1 Q2]. split; [exact Q1|discriminate].
  Qed.
  Lemma attempt_marks e c ctx f evs v : Attempt e c ctx f evs v -> match v with VRaise _ => True | _ => marks false (acted e) evs end.
  Proof.
    assert (HH : forall call rest, call_of Has e c f call -> marks false (acted e) (call :: rest)).
    { intros call rest HC. unfold marks. split.
      - intros _. right. exists call. split; [now left|]. destruct (call_hook _ _ _ _ HC) as (? & ? & ? & ? & ->). exact Logic.I.
      - intros _. unfold acted. unfold call_of in HC. destruct (e_action e); [reflexivity|destruct HC as [_ []]]. }
    destruct 1 as [v HA HV|call st msg HC _|call msg HC _|a HA _ _|call x HC _ _|call x HC _|x _]; auto.
    - assert (M : marks false (acted e) (unchanged_log flags (fst ctx))).
      { unfold marks, acted. rewrite HA. split; [discriminate|]. intros [H|(ev & I & A)]; [exact H|].
        unfold unchanged_log in I. destruct (N.testbit flags 3); [destruct I as [<-|[]]; destruct A|destruct I]. }
      destruct v; auto.
    - assert (M : marks false (acted e) [EvLog LError (fst ctx) (Some StError) (exn_msg (mismatch a))]).
      { unfold marks, acted. rewrite HA. split; [|reflexivity]. intros _. right. eexists. split; [now left|exact Logic.I]. }
      destruct (N.testbit flags 0); [exact M|exact Logic.I].
    - destruct (N.testbit flags 0); [now apply HH|exact Logic.I].
  Qed.
  Lemma marks_weak b0 b evs evs' : marks b0 b evs -> (forall ev, In ev evs' -> ~ attempted ev) -> marks b0 b (evs ++ evs').
  Proof.
    unfold marks. intros -> H. split.
    - intros [X|(ev & I & A)]; [auto|]. right. exists ev. rewrite in_app_iff. auto.
    - intros [X|(ev & I & A)]; [auto|]. rewrite in_app_iff in I. destruct I as [I|I]; [eauto|]. now destruct (H ev I).
  Qed.
  Lemma missing_quiet evs : Forall missing_child evs -> forall ev, In ev evs -> ~ attempted ev.
  Proof. intros H ev I. rewrite Forall_forall in H. rewrite (H ev I). auto. Qed.
  Lemma progress_quiet n ev : In ev (progress cb total n) -> ~ attempted ev.
  Proof. unfold progress. destruct cb; [|tauto]. intros [<-|[]]. auto. Qed.
  Lemma marks_true evs ev : In ev evs -> attempted ev -> marks false true evs.
  Proof. intros H1 H2. unfold marks. split; [|auto]. intros _. right. eauto. Qed.

  Lemma run_plain : forall e n evs n' r, Run e n evs n' r -> plain n evs n' r.
  Proof.
    induction e as [e IH] using elem_ind'. intros n evs n' r. rewrite run_eq, kids_run.
    assert (HK : forall n b evs n' r, steps (map Run (ordered ord (fun x => x) (e_kids e))) n b evs n' r ->
       filter completeb evs = [] /\ forall b', r = Ok b' -> marks b b' evs).
    { apply steps_plain. apply Forall_forall. intros C HC. apply in_map_iff in HC as (x & <- & Hx). apply kid_occ, In_children in Hx as (t & g & m & I1 & I2).
      eauto. }
    set (kids := map Run _) in *. clearbody kids. clear IH.
    intros H. destruct H as [x _|evs n' x _ _ H|c u found nat1 evk nk ctx eva v evr n' r _ _ HB _ _ HAT HAF].
    - split; [reflexivity|discriminate].
    - apply HK in H as [H _]. split; [exact H|discriminate].
    - assert (C1 : filter completeb evk = []).
      { unfold before in HB. destruct nat1; [destruct HB as (_ & _ & b & H); eapply HK; eauto|destruct HB as (-> & _); reflexivity]. }
      assert (NAT : nat1 = true -> acted e = true) by (intros ->; destruct HB as [HA _]; unfold acted; now rewrite HA).
      assert (EVK : nat1 = false -> evk = []) by (intros ->; destruct HB as [E _]; exact E).
      pose proof (attempt_no_complete _ _ _ _ _ _ HAT) as C2. pose proof (attempt_marks _ _ _ _ _ _ HAT) as MA.
      assert (M : match v with VRaise _ => True | _ => marks false (acted e) (evk ++ eva) end).
      { destruct nat1; [|rewrite (EVK eq_refl); exact MA]. rewrite (NAT eq_refl) in *.
        destruct v; auto; unfold marks in *; (split; [|reflexivity]); intros _; right; destruct (proj1 MA eq_refl) as [N|(ev & I & A)]; try discriminate;
          exists ev; rewrite in_app_iff; auto. }
      assert (ACT : forall a, e_action e = Some a -> acted e = true) by (intros a E; unfold acted; now rewrite E).
      unfold plain. rewrite !filter_app, C1, C2. cbn [app]. rewrite app_assoc.
      destruct HAF as [x| |evs x _ HM _|evs o HA _ _ HM|evs n' r N1 _ HS|N1].
      + split; [reflexivity|discriminate].
      + split; [reflexivity|]. intros b E. injection E as <-. apply marks_weak; [exact M|]. intros ev [<-|[]] A. exact A.
      + split; [now apply missing_no_complete|discriminate].
      + split; [now apply missing_no_complete|]. intros b E. injection E as <-. rewrite <- (ACT _ HA). apply marks_weak; [exact M|]. now apply missing_quiet.
      + apply HK in HS as [S1 S2]. split; [now rewrite filter_app, progress_no_complete, S1|]. intros b E. specialize (S2 b E).
        unfold marks in *. rewrite S2, M. split.
        * intros [[X|(ev & I & A)]|(ev & I & A)]; [discriminate|right; exists ev; rewrite !in_app_iff; rewrite in_app_iff in I; tauto|right; exists ev; rewrite !in_app_iff; auto].
        * intros [X|(ev & I & A)]; [discriminate|]. rewrite in_app_iff in I. destruct I as [I|I]; [left; right; eauto|].
          rewrite in_app_iff in I. destruct I as [I|I]; [now destruct (progress_quiet _ _ I)|right; eauto].
      + split; [apply progress_no_complete|]. intros b E. injection E as <-. rewrite <- (NAT N1). apply marks_weak; [exact M|]. intros ev. apply progress_quiet.
  Qed.

  (** ** Records of failures without CONTINUE_ON_FAILURE *)
  (* an exception of a CRUD class leaves only without the flag *)
  Lemma attempt_crud e c ctx f evs x : N.testbit flags 0 = true -> Attempt e c ctx f evs (VRaise x) -> is_crud x = false.
  Proof.
    intros HF H. remember (VRaise x) as v eqn:EV.
    destruct H as [v HA HV|call st msg HC _|call msg HC _|a HA _ _|call y HC _ _|call y HC Hy|y Hy]; try discriminate.
    - destruct HV as [[-> _]|[-> _]]; discriminate.
    - rewrite HF in EV. discriminate.
    - rewrite HF in EV. discriminate.
    - injection EV as ->. exact Hy.
    - injection EV as ->. exact Hy.
  Qed.
End Facts.
