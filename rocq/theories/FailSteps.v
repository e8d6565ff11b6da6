(** * FailSteps: hook calls that may fail, and the steps around them. *)
From Verif Require Export ConvTop.

(** [m], started in [s], ends in some way *)
Definition goes {S A} (m : M S A) (s : S) (Q : S -> result A -> Prop) : Prop := Q (fst (m s)) (snd (m s)).

Lemma goes_ret {S A} (a : A) (s : S) (Q : S -> result A -> Prop) : Q s (Ok a) -> goes (ret a) s Q.
Proof. auto. Qed.
Lemma goes_raise {S A} (x : exn) (s : S) (Q : S -> result A -> Prop) : Q s (Err x) -> goes (raise x) s Q.
Proof. auto. Qed.
Lemma goes_weak {S A} (m : M S A) s (Q Q' : S -> result A -> Prop) : goes m s Q -> (forall s' r, Q s' r -> Q' s' r) -> goes m s Q'.
Proof. unfold goes. auto. Qed.
Lemma goes_same {S A} (m m' : M S A) s Q : m s = m' s -> goes m' s Q -> goes m s Q.
Proof. unfold goes. now intros ->. Qed.
Lemma goes_bind {S A B} (m : M S A) (k : A -> M S B) s Q :
  goes m s (fun s' r => match r with Ok a => goes (k a) s' Q | Err x => Q s' (Err x) end) -> goes (bind m k) s Q.
Proof. unfold goes, bind. destruct (m s) as [s1 [a|x]]; simpl; auto. Qed.
Lemma goes_step {S A B} (m : M S A) (k : A -> M S B) s Q R :
  ends m s Q -> (forall s' a, Q s' a -> goes (k a) s' R) -> goes (bind m k) s R.
Proof. intros (s1 & a & E & H) F. apply goes_bind. unfold goes at 1. rewrite E. simpl. now apply F. Qed.
Lemma goes_try {S A} (m : M S A) (p : exn -> bool) (h : exn -> M S A) s Q :
  goes m s (fun s' r => match r with Ok a => Q s' (Ok a) | Err x => if p x then goes (h x) s' Q else Q s' (Err x) end) ->
  goes (try_catch m p h) s Q.
Proof. unfold goes, try_catch. destruct (m s) as [s1 [a|x]]; simpl; auto. destruct (p x); auto. Qed.
Lemma goes_slift {A} (m : M world A) s Q : goes m (ss_w s) (fun w r => Q (set_ss_w s w) r) -> goes (slift m) s Q.
Proof. auto. Qed.
Lemma goes_ends {S A} (m : M S A) s (Q : S -> A -> Prop) (R : S -> result A -> Prop) :
  ends m s Q -> (forall s' a, Q s' a -> R s' (Ok a)) -> goes m s R.
Proof. intros (s1 & a & E & H) F. unfold goes. rewrite E. simpl. auto. Qed.

Section Model.
  Variable env : senv.
  Variable da : adapter.
  Variable WX : string -> Prop.
  Hypothesis HONEST : forall w hc, ho_end (sv_hooks env w hc) = HReturn -> ho_base (sv_hooks env w hc) = true.
  Hypothesis WRITES : hooks_write WX (sv_hooks env).
  Notation dst := (sv_dst env).
  Notation good := (good dst da).
  Notation moved := (moved dst).
  Notation h := (sv_hooks env).

  (** the exception ends the synchronisation: a hook raised it and it is not tolerated *)
  Definition stops (x : exn) : Prop :=
    (exists w hc, ho_end (h w hc) = HRaise x) /\ (is_crud x = true -> has_flag (sv_flags env) SF_CONTINUE_ON_FAILURE = false).

  (** how the hook call ends *)
  Definition ended (out : outcome) (r : result (option ref)) (Good : option ref -> Prop) : Prop :=
    match ho_end out, r with
    | HReturn, Ok (Some x) => Good (Some x)
    | HReturnNone, Ok None => True
    | HRaise x, Err y => y = x
    | _, _ => False
    end.

  Lemma create_goes T P c ids attrs o w : good w -> create_base c dst ids attrs = Ok o ->
    goes (call_create env c ids attrs) w (fun w' r => good w' /\ moved T P w w' /\
      (forall k, look w' dst k = look w dst k) /\
      (forall x, x < length (w_heap w) -> nth_error (w_heap w') x = nth_error (w_heap w) x) /\
      ended (h w (HCreate c ids attrs)) r (fun x => x = Some (length (w_heap w)) /\
        exists o', nth_error (w_heap w') (length (w_heap w)) = Some o' /\ same_but WX o o')).
  Proof.
    intros G E. set (out := h w (HCreate c ids attrs)). set (ev := EvHook ACreate (c_modelname c) ids attrs).
    assert (AL : goes (call_create env c ids attrs) w (fun w' r =>
      exists x, (if ho_base out then x = Some (length (w_heap w)) /\ w' = set_heap (add_event w ev) (w_heap w ++ [apply_hook out o]) else x = None /\ w' = add_event w ev) /\
        r = match ho_end out with HReturn => Ok x | HReturnNone => Ok None | HRaise y => Err y end)).
    { unfold goes, call_create, bind, get_state, emit, modify, halloc, lift, ret, raise. fold out ev. rewrite E.
      destruct (ho_base out); cbn [fst snd]; (destruct (ho_end out); cbn [fst snd]; eexists; (split; [split; reflexivity|reflexivity])). }
    eapply goes_weak; [exact AL|]. cbv beta. intros w' r (x & B & R).
    assert (W : ho_base out = true /\ x = Some (length (w_heap w)) /\ w' = set_heap (add_event w ev) (w_heap w ++ [apply_hook out o]) \/
                ho_base out = false /\ x = None /\ w' = add_event w ev) by (destruct (ho_base out); [left|right]; tauto).
    clear B. destruct W as [(HB & -> & ->)|(HB & -> & ->)].
    - split; [apply (good_alloc dst da (add_event w ev)), good_event; exact G|].
      split; [eapply moved_trans; [apply (moved_event dst T P w ev)|apply (moved_alloc dst T P (add_event w ev))]|].
      split; [reflexivity|]. split; [intros x LT; cbn [w_heap set_heap add_event]; now rewrite nth_error_app1 by exact LT|].
      unfold ended. fold out. destruct (ho_end out); subst r; auto. split; [reflexivity|]. exists (apply_hook out o).
      cbn [w_heap set_heap]. rewrite nth_error_app2, Nat.sub_diag by lia. split; [reflexivity|]. apply apply_hook_but. intros k. apply WRITES.
    - split; [apply good_event; exact G|]. split; [apply moved_event|]. split; [reflexivity|]. split; [reflexivity|].
      unfold ended. fold out. destruct (ho_end out) eqn:HE; subst r; auto. pose proof (HONEST _ _ HE : ho_base out = true) as X1. rewrite X1 in HB. discriminate HB.
  Qed.

  Lemma update_goes (T : key -> Prop) k r o attrs o' w : good w -> nth_error (w_heap w) r = Some o ->
    T k -> look w dst k = Some r -> setattrs o attrs = (o', Ok tt) -> obj_rel o o' ->
    goes (call_update env r attrs) w (fun w' x => good w' /\ moved T None w w' /\
      (forall k, look w' dst k = look w dst k) /\
      (forall x, x <> r -> nth_error (w_heap w') x = nth_error (w_heap w) x) /\
      (exists ob o2, (ob = o \/ ob = o') /\ nth_error (w_heap w') r = Some o2 /\ same_but WX ob o2 /\
        ended (h w (HUpdate r attrs)) x (fun y => y = Some r /\ ob = o'))).
  Proof.
    intros G Ho HT HL E RL. set (out := h w (HUpdate r attrs)). set (ev := EvHook AUpdate (get_type o) (get_identifiers o) attrs).
    assert (E1 : update_base o attrs = (set_status o' StSuccess "Updated successfully", Ok tt)) by (unfold update_base; now rewrite E).
    set (w1 := add_event w ev). set (ob := if ho_base out then set_status o' StSuccess "Updated successfully" else o).
    set (w2 := if ho_base out then set_heap w1 (list_set (w_heap w1) r ob) else w1).
    assert (Ho2 : nth_error (w_heap w2) r = Some ob).
    { unfold w2, ob. destruct (ho_base out); [apply (nth_list_set_eq _ _ _ o); exact Ho|exact Ho]. }
    assert (AL : goes (call_update env r attrs) w (fun w' x => w' = set_heap w2 (list_set (w_heap w2) r (apply_hook out ob)) /\
      x = match ho_end out with HReturn => Ok (Some r) | HReturnNone => Ok None | HRaise y => Err y end)).
    { unfold call_update. apply goes_bind. cbn [get_state fst snd goes]. fold out. apply goes_bind. unfold goes at 1.
      rewrite (hget_eq _ _ _ Ho). cbn [fst snd]. apply goes_bind. unfold goes at 1. cbn [emit modify fst snd]. fold ev w1.
      assert (S1 : (if ho_base out then mutate r (fun o => update_base o attrs) else ret tt) w1 = (w2, Ok tt)).
      { unfold w2, ob. destruct (ho_base out); [|reflexivity]. exact (mutate_ok r _ w1 o _ Ho E1). }
      apply goes_bind. unfold goes at 1. rewrite S1. cbn [fst snd]. apply goes_bind. unfold goes at 1.
      rewrite (mutate_ok r (fun o => (apply_hook out o, Ok tt)) w2 ob _ Ho2 eq_refl). cbn [fst snd]. destruct (ho_end out); split; reflexivity. }
    eapply goes_weak; [exact AL|]. cbv beta. intros w' x (-> & ->).
    assert (R1 : obj_rel o ob).
    { unfold ob. destruct (ho_base out); [eapply obj_rel_trans; [exact RL|apply obj_rel_status]|]. repeat split; auto. }
    assert (G1 : good w1) by (apply good_event; exact G).
    assert (G2 : good w2) by (unfold w2; destruct (ho_base out); [apply good_set with o; auto|exact G1]).
    assert (M2 : moved T None w w2).
    { eapply moved_trans; [apply (moved_event dst T None w ev)|]. fold w1. unfold w2. destruct (ho_base out); [|apply moved_refl].
      apply moved_set. left. exists k. auto. }
    assert (L2 : forall k, look w2 dst k = look w dst k) by (intros k'; unfold w2; destruct (ho_base out); reflexivity).
    split; [apply good_set with ob; auto; apply (same_but_rel WX), apply_hook_but; intros k'; apply WRITES|].
    split; [eapply moved_trans; [exact M2|]; apply moved_set; left; exists k; split; [exact HT|now rewrite L2]|].
    split; [exact L2|]. split.
    { intros y N. cbn [w_heap set_heap]. rewrite nth_list_set_neq by exact N. unfold w2. destruct (ho_base out); [|reflexivity].
      cbn [w_heap set_heap]. now rewrite nth_list_set_neq by exact N. }
    exists (if ho_base out then o' else o), (apply_hook out ob). split; [destruct (ho_base out); auto|].
    split; [apply (nth_list_set_eq _ _ _ _ Ho2)|]. split.
    - unfold ob. destruct (ho_base out); [eapply same_but_trans; [apply same_but_status|]|]; apply apply_hook_but; intros k'; apply WRITES.
    - unfold ended. fold out. destruct (ho_end out) eqn:HE; auto. split; [reflexivity|]. now rewrite (HONEST _ _ HE : ho_base out = true).
  Qed.

  Lemma delete_goes (T : key -> Prop) k r o w : good w -> nth_error (w_heap w) r = Some o ->
    T k -> look w dst k = Some r ->
    goes (call_delete env r) w (fun w' x => calm_but env da WX T w w' /\
      (forall x, x <> r -> nth_error (w_heap w') x = nth_error (w_heap w) x) /\
      ended (h w (HDelete r)) x (fun y => y = Some r)).
  Proof.
    intros G Ho HT HL. set (out := h w (HDelete r)). set (ev := EvHook ADelete (get_type o) (get_identifiers o) []).
    set (w1 := add_event w ev). set (ob := if ho_base out then delete_base o else o).
    set (w2 := if ho_base out then set_heap w1 (list_set (w_heap w1) r ob) else w1).
    assert (Ho2 : nth_error (w_heap w2) r = Some ob).
    { unfold w2, ob. destruct (ho_base out); [apply (nth_list_set_eq _ _ _ o); exact Ho|exact Ho]. }
    assert (AL : goes (call_delete env r) w (fun w' x => w' = set_heap w2 (list_set (w_heap w2) r (apply_hook out ob)) /\
      x = match ho_end out with HReturn => Ok (Some r) | HReturnNone => Ok None | HRaise y => Err y end)).
    { unfold call_delete. apply goes_bind. cbn [get_state fst snd goes]. fold out. apply goes_bind. unfold goes at 1.
      rewrite (hget_eq _ _ _ Ho). cbn [fst snd]. apply goes_bind. unfold goes at 1. cbn [emit modify fst snd]. fold ev w1.
      assert (S1 : (if ho_base out then mutate r (fun o => (delete_base o, Ok tt)) else ret tt) w1 = (w2, Ok tt)).
      { unfold w2, ob. destruct (ho_base out); [|reflexivity]. exact (mutate_ok r _ w1 o _ Ho eq_refl). }
      apply goes_bind. unfold goes at 1. rewrite S1. cbn [fst snd]. apply goes_bind. unfold goes at 1.
      rewrite (mutate_ok r (fun o => (apply_hook out o, Ok tt)) w2 ob _ Ho2 eq_refl). cbn [fst snd]. destruct (ho_end out); split; reflexivity. }
    eapply goes_weak; [exact AL|]. cbv beta. intros w' x (-> & ->).
    assert (G1 : good w1) by (apply good_event; exact G).
    assert (C2 : calm env da T w w2).
    { eapply calm_trans; [apply (calm_event env da T w ev); exact G|]. fold w1. unfold w2, ob. destruct (ho_base out); [|now apply calm_refl].
      eapply calm_set; [exact G1|exact Ho|apply same_data_status|exact HT|exact HL]. }
    split.
    - eapply calm_but_trans; [apply calm_is_but; exact C2|].
      eapply calm_but_set; [apply C2|exact Ho2|apply apply_hook_but; intros k'; apply WRITES|exact HT|].
      destruct C2 as (_ & _ & LK & _). now rewrite LK.
    - split; [|unfold ended; fold out; destruct (ho_end out); auto].
      intros y N. cbn [w_heap set_heap]. rewrite nth_list_set_neq by exact N. unfold w2. destruct (ho_base out); [|reflexivity].
      cbn [w_heap set_heap]. now rewrite nth_list_set_neq by exact N.
  Qed.

  (** the part around the hook call *)
  Definition call_for (a : action) (s : sstate) (dm : option ref) (ids attrs : dict val) : M world (option ref) :=
    match a with
    | ACreate => match dm, ss_class s with
                 | Some _, _ => raise ObjectNotCreated
                 | None, Some c => call_create env c ids attrs
                 | None, None => raise ExnAttributeError
                 end
    | AUpdate => match dm with None => raise ObjectNotUpdated | Some r => call_update env r attrs end
    | ADelete => match dm with None => raise ObjectNotDeleted | Some r => call_delete env r end
    end.
  Lemma sync_goes a dm ids attrs s (Qs : world -> ref -> Prop) (Qf : world -> Prop) : ss_action s = Some a ->
    goes (call_for a s dm ids attrs) (ss_w s) (fun w x => match x with
      | Ok (Some r) => (exists o, nth_error (w_heap w) r = Some o) /\ forall w', quiet w w' -> Qs w' r
      | Ok None => forall w', quiet w w' -> Qf w'
      | Err x => (exists w hc, ho_end (h w hc) = HRaise x) /\ forall w', quiet w w' -> Qf w'
      end) ->
    goes (sync_model env dm ids attrs) s (fun s' x => exists w', s' = set_ss_w s w' /\
      match x with
      | Ok (b, Some r) => b = true /\ Qs w' r
      | Ok (_, None) => Qf w'
      | Err x => stops x /\ Qf w'
      end).
  Proof.
    intros E H. unfold sync_model. apply goes_bind. unfold goes at 1. cbn [get_state fst snd]. rewrite E. cbv iota.
    assert (Q0 : forall w, quiet w w) by (intros w; repeat split).
    assert (TRY : goes (r <- sync_model_try env dm ids attrs;; ret (Some r)) s (fun s' x => exists w', s' = set_ss_w s w' /\
      match x with
      | Ok (Some (Some r, _)) => forall w2, quiet w' w2 -> Qs w2 r
      | Ok (Some (None, _)) => forall w2, quiet w' w2 -> Qf w2
      | Ok None => False
      | Err x => (exists w hc, ho_end (h w hc) = HRaise x) /\ forall w2, quiet w' w2 -> Qf w2
      end)).
    { apply goes_bind. unfold sync_model_try. apply goes_bind. unfold goes at 1. cbn [get_state fst snd]. rewrite E. apply goes_bind.
      match goal with |- goes ?m s _ => assert (EM : m s = slift (call_for a s dm ids attrs) s) end.
      { unfold call_for, slift, raise. destruct a, dm as [r|]; try (destruct (ss_class s)); cbn [fst snd]; try reflexivity; now rewrite set_ss_w_id. }
      apply (goes_same _ _ _ _ EM), goes_slift. eapply goes_weak; [exact H|]. clear H EM. cbv beta. intros w1 [[r|]|x] H.
      - destruct H as ((o & Ho) & HQ). apply goes_bind. apply goes_slift. cbn [ss_w set_ss_w]. unfold goes at 1. rewrite (hget_eq _ _ _ Ho). cbn [fst snd].
        apply goes_ret. apply goes_ret. exists w1. split; [now destruct s|exact HQ].
      - apply goes_ret. apply goes_ret. exists w1. split; [reflexivity|exact H].
      - exists w1. split; [reflexivity|exact H]. }
    apply goes_bind, goes_try. eapply goes_weak; [exact TRY|]. cbv beta. intros s1 x (w1 & -> & HX).
    destruct x as [[[m [st msg]]|]|x].
    - eapply goes_step; [apply log_ends|]. cbv beta. intros s2 y (w2 & -> & QU). apply goes_ret. exists w2. split; [now destruct s|].
      destruct m as [r|]; [split; [reflexivity|]; now apply HX|now apply HX].
    - destruct HX.
    - destruct HX as (HR & HX). destruct (is_crud x) eqn:CR.
      + eapply goes_step; [apply log_ends|]. cbv beta. intros s2 y (w2 & -> & QU).
        destruct (has_flag (sv_flags env) SF_CONTINUE_ON_FAILURE) eqn:HF.
        * apply goes_ret. apply goes_ret. exists w2. split; [now destruct s|]. now apply HX.
        * apply goes_raise. exists w2. split; [now destruct s|]. split; [|now apply HX]. split; [exact HR|auto].
      + exists w1. split; [reflexivity|]. split; [split; [exact HR|congruence]|now apply HX].
  Qed.

  Lemma ended_result out r Good : ended out r Good -> match r with
    | Ok (Some x) => Good (Some x) /\ ho_end out = HReturn
    | Ok None => ho_end out <> HReturn
    | Err x => ho_end out = HRaise x
    end.
  Proof. unfold ended. destruct (ho_end out), r as [[?|]|?]; intros H; try contradiction; auto; try discriminate. now subst. Qed.

  Lemma sync_create' T P ids attrs c o s : good (ss_w s) -> ss_action s = Some ACreate -> ss_class s = Some c ->
    create_base c dst ids attrs = Ok o ->
    goes (sync_model env None ids attrs) s (fun s' x => exists w', s' = set_ss_w s w' /\ good w' /\ moved T P (ss_w s) w' /\
      (forall k, look w' dst k = look (ss_w s) dst k) /\
      (forall x, x < length (w_heap (ss_w s)) -> nth_error (w_heap w') x = nth_error (w_heap (ss_w s)) x) /\
      match x with
      | Ok (b, Some r) => b = true /\ r = length (w_heap (ss_w s)) /\ exists o', nth_error (w_heap w') r = Some o' /\ same_but WX o o'
      | Ok (_, None) => ho_end (h (ss_w s) (HCreate c ids attrs)) <> HReturn
      | Err x => stops x /\ ho_end (h (ss_w s) (HCreate c ids attrs)) <> HReturn
      end).
  Proof.
    intros G E EC EB. set (com := fun w' => good w' /\ moved T P (ss_w s) w' /\
      (forall k, look w' dst k = look (ss_w s) dst k) /\
      (forall x, x < length (w_heap (ss_w s)) -> nth_error (w_heap w') x = nth_error (w_heap (ss_w s)) x)).
    assert (QC : forall w1 w', com w1 -> quiet w1 w' -> com w').
    { intros w1 w' (G1 & M1 & L1 & N1) QQ. pose proof (quiet_calm env da T _ _ G1 QQ) as C. destruct QQ as (QH & QA & QR). split; [apply C|].
      split; [eapply moved_trans; [exact M1|]; apply moved_none, C|]. split; [intros k; destruct C as (_ & _ & LK & _); now rewrite LK|].
      intros x LT. rewrite QH. now apply N1. }
    eapply goes_weak; [apply (sync_goes ACreate None ids attrs s
      (fun w' r => com w' /\ r = length (w_heap (ss_w s)) /\ exists o', nth_error (w_heap w') r = Some o' /\ same_but WX o o')
      (fun w' => com w' /\ ho_end (h (ss_w s) (HCreate c ids attrs)) <> HReturn) E)|].
    - unfold call_for. rewrite EC. eapply goes_weak; [apply (create_goes T P _ _ _ _ _ G EB)|].
      cbv beta. intros w1 x (G1 & M1 & L1 & N1 & EN). apply ended_result in EN.
      assert (C1 : com w1) by (repeat (split; [assumption|]); assumption). destruct x as [[r|]|x].
      + destruct EN as ((EQ & o' & Hn & D) & _). injection EQ as ->. split; [eauto|]. intros w' QQ. split; [eapply QC; eauto|]. split; [reflexivity|].
        exists o'. destruct QQ as (QH & _). rewrite QH. auto.
      + intros w' QQ. split; [eapply QC; eauto|exact EN].
      + split; [eauto|]. intros w' QQ. split; [eapply QC; eauto|]. congruence.
    - cbv beta. intros s' x (w' & -> & HX). exists w'. split; [reflexivity|].
      destruct x as [[b [r|]]|x]; [destruct HX as (-> & (X1 & X2 & X3 & X4) & X5 & X6)|destruct HX as ((X1 & X2 & X3 & X4) & X5)|destruct HX as (X0 & (X1 & X2 & X3 & X4) & X5)];
        repeat (split; [assumption|]); auto.
  Qed.

  Lemma sync_update' (T : key -> Prop) k r o o' ids attrs s : good (ss_w s) -> ss_action s = Some AUpdate ->
    nth_error (w_heap (ss_w s)) r = Some o -> T k -> look (ss_w s) dst k = Some r ->
    setattrs o attrs = (o', Ok tt) -> obj_rel o o' ->
    goes (sync_model env (Some r) ids attrs) s (fun s' x => exists w', s' = set_ss_w s w' /\ good w' /\ moved T None (ss_w s) w' /\
      (forall k, look w' dst k = look (ss_w s) dst k) /\
      (forall x, x <> r -> nth_error (w_heap w') x = nth_error (w_heap (ss_w s)) x) /\
      exists ob o2, (ob = o \/ ob = o') /\ nth_error (w_heap w') r = Some o2 /\ same_but WX ob o2 /\
      match x with
      | Ok (b, Some r') => b = true /\ r' = r /\ ob = o'
      | Ok (_, None) => ho_end (h (ss_w s) (HUpdate r attrs)) <> HReturn
      | Err x => stops x /\ ho_end (h (ss_w s) (HUpdate r attrs)) <> HReturn
      end).
  Proof.
    intros G E Ho HT HL ES RL. set (com := fun (ob : obj) (w' : world) => good w' /\ moved T None (ss_w s) w' /\
      (forall k, look w' dst k = look (ss_w s) dst k) /\
      (forall x, x <> r -> nth_error (w_heap w') x = nth_error (w_heap (ss_w s)) x) /\
      (ob = o \/ ob = o') /\ exists o2, nth_error (w_heap w') r = Some o2 /\ same_but WX ob o2).
    assert (QC : forall ob w1 w', com ob w1 -> quiet w1 w' -> com ob w').
    { intros ob w1 w' (G1 & M1 & L1 & N1 & OB & o2 & H2 & D2) QQ. pose proof (quiet_calm env da T _ _ G1 QQ) as C. destruct QQ as (QH & QA & QR). split; [apply C|].
      split; [eapply moved_trans; [exact M1|]; apply C|]. split; [intros k'; destruct C as (_ & _ & LK & _); now rewrite LK|].
      split; [intros x N; rewrite QH; now apply N1|]. split; [exact OB|]. exists o2. now rewrite QH. }
    eapply goes_weak; [apply (sync_goes AUpdate (Some r) ids attrs s
      (fun w' r' => com o' w' /\ r' = r)
      (fun w' => (exists ob, com ob w') /\ ho_end (h (ss_w s) (HUpdate r attrs)) <> HReturn) E)|].
    - unfold call_for. eapply goes_weak; [apply (update_goes T k r o attrs o' _ G Ho HT HL ES RL)|].
      cbv beta. intros w1 x (G1 & M1 & L1 & N1 & ob & o2 & OB & H2 & D2 & EN). apply ended_result in EN.
      assert (C1 : com ob w1) by (repeat (split; [assumption|]); eauto). destruct x as [[r'|]|x].
      + destruct EN as ((EQ & ->) & _). injection EQ as ->. split; [eauto|]. intros w' QQ. split; [eapply QC; eauto|reflexivity].
      + intros w' QQ. split; [exists ob; eapply QC; eauto|exact EN].
      + split; [eauto|]. intros w' QQ. split; [exists ob; eapply QC; eauto|]. congruence.
    - cbv beta. intros s' x (w' & -> & HX). exists w'. split; [reflexivity|].
      destruct x as [[b [r'|]]|x]; [destruct HX as (-> & (X1 & X2 & X3 & X4 & X5 & o2 & X6 & X7) & X8)|
        destruct HX as ((ob & X1 & X2 & X3 & X4 & X5 & o2 & X6 & X7) & X8)|destruct HX as (X0 & (ob & X1 & X2 & X3 & X4 & X5 & o2 & X6 & X7) & X8)];
        repeat (split; [assumption|]); eexists _, o2; (split; [exact X5|]); repeat (split; [assumption|]); auto.
  Qed.

  Lemma sync_delete' (T : key -> Prop) k r o ids attrs s : good (ss_w s) -> ss_action s = Some ADelete ->
    nth_error (w_heap (ss_w s)) r = Some o -> T k -> look (ss_w s) dst k = Some r ->
    goes (sync_model env (Some r) ids attrs) s (fun s' x => exists w', s' = set_ss_w s w' /\ calm_but env da WX T (ss_w s) w' /\
      (forall x, x <> r -> nth_error (w_heap w') x = nth_error (w_heap (ss_w s)) x) /\
      match x with
      | Ok (b, Some r') => b = true /\ r' = r
      | Ok (_, None) => ho_end (h (ss_w s) (HDelete r)) <> HReturn
      | Err x => stops x /\ ho_end (h (ss_w s) (HDelete r)) <> HReturn
      end).
  Proof.
    intros G E Ho HT HL. set (com := fun w' => calm_but env da WX T (ss_w s) w' /\
      (forall x, x <> r -> nth_error (w_heap w') x = nth_error (w_heap (ss_w s)) x)).
    assert (QC : forall w1 w', com w1 -> quiet w1 w' -> com w').
    { intros w1 w' (C1 & N1) QQ. pose proof C1 as (G1 & _). split; [eapply calm_but_trans; [exact C1|now apply calm_is_but, quiet_calm]|].
      destruct QQ as (QH & _). intros x N. rewrite QH. now apply N1. }
    eapply goes_weak; [apply (sync_goes ADelete (Some r) ids attrs s
      (fun w' r' => com w' /\ r' = r)
      (fun w' => com w' /\ ho_end (h (ss_w s) (HDelete r)) <> HReturn) E)|].
    - unfold call_for. eapply goes_weak; [apply (delete_goes T k r o _ G Ho HT HL)|].
      cbv beta. intros w1 x (C1 & N1 & EN). apply ended_result in EN. destruct x as [[r'|]|x].
      + destruct EN as (EQ & _). injection EQ as ->. split.
        * destruct C1 as (_ & _ & _ & D). destruct (D r o Ho) as (o1 & H1 & _). eauto.
        * intros w' QQ. split; [eapply QC; eauto; split; assumption|reflexivity].
      + intros w' QQ. split; [eapply QC; eauto; split; assumption|exact EN].
      + split; [eauto|]. intros w' QQ. split; [eapply QC; eauto; split; assumption|]. congruence.
    - cbv beta. intros s' x (w' & -> & HX). exists w'. split; [reflexivity|].
      destruct x as [[b [r'|]]|x]; [destruct HX as (-> & (X1 & X2) & X3)|destruct HX as ((X1 & X2) & X3)|destruct HX as (X0 & (X1 & X2) & X3)];
        repeat (split; [assumption|]); auto.
  Qed.
End Model.
