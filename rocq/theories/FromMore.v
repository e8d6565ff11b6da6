(** * FromMore: consequences of the hook calls of a synchronisation. *)
From Verif Require Export IdleFacts.

Lemma dst_obj_fun w dst e o o' : dst_obj w dst e o -> dst_obj w dst e o' -> o = o'.
Proof.
  intros (k & r & (ad & c & A1 & A2 & A3 & A4) & L & H) (k' & r' & (ad' & c' & B1 & B2 & B3 & B4) & L' & H').
  rewrite A1 in B1. injection B1 as <-. rewrite A2 in B2. injection B2 as <-. rewrite A4 in B4. injection B4 as E.
  rewrite A3 in L. rewrite B3, <- E in L'. rewrite L in L'. injection L' as <-. congruence.
Qed.

Section Success.
  Variables (w : world) (dst : aid) (ord : order_fn) (gs : dict (dict elem)).
  Notation Calls := (calls w dst ord (fun _ => True) (fun _ => False) False).
  Notation CallsAll := (calls_all w dst ord (fun _ => True) (fun _ => False) False).

  Lemma all_in es evs x : CallsAll es evs -> In x es -> exists l1 m l2, evs = l1 ++ m ++ l2 /\ Calls x m.
  Proof.
    induction 1 as [|e es ev1 ev2 H1 H2 IH]; [intros []|]. intros [->|I].
    - exists [], ev1, ev2. auto.
    - destruct (IH I) as (l1 & m & l2 & -> & C). exists (ev1 ++ l1), m, l2. now rewrite <- app_assoc.
  Qed.
  Lemma reached_calls evs : CallsAll (ordered ord (fun x => x) gs) evs -> forall e, is_reached w dst ord gs e ->
    exists l1 m l2, evs = l1 ++ m ++ l2 /\ Calls e m.
  Proof.
    intros HA e HR. induction HR as [e I|p e HR IH I HS]; [eapply all_in; eauto|].
    destruct IH as (l1 & m & l2 & -> & C).
    assert (K : exists a k b, m = a ++ k ++ b /\ CallsAll (kids_in_order ord p) k).
    { inversion C; subst; try contradiction.
      - exists [], m, []. now rewrite app_nil_r.
      - exists [call], evs, []. now rewrite app_nil_r.
      - exists [call], evs, []. now rewrite app_nil_r.
      - exists [], evs, [call]. auto.
      - exfalso. eapply HS; eauto. }
    destruct K as (a & k & b & -> & K). destruct (all_in _ _ e K I) as (a1 & m' & b1 & -> & C').
    exists (l1 ++ a ++ a1), m', (b1 ++ b ++ l2). split; [|exact C']. now rewrite <- !app_assoc.
  Qed.

  Lemma kids_occ e x : occurs e gs -> In x (kids_in_order ord e) -> occurs x gs.
  Proof. intros O I. eapply occurs_kid; [exact O|]. eapply ordered_sub. exact I. Qed.
  Lemma walk_eq e : walk ord e = e :: concat (map (walk ord) (kids_in_order ord e)).
  Proof. unfold kids_in_order. rewrite <- ordered_map. destruct e. reflexivity. Qed.
  Hypothesis Plain : forall e o, occurs e gs -> e_action e = Some ADelete -> dst_obj w dst e o -> ~ naturally o /\ ~ skips_children (o_flags o).
  Lemma flat_calls : (forall e evs, Calls e evs -> occurs e gs -> Forall2 (about w dst) (filter acted (walk ord e)) evs) /\
    (forall es evs, CallsAll es evs -> (forall x, In x es -> occurs x gs) -> Forall2 (about w dst) (filter acted (concat (map (walk ord) es))) evs).
  Proof.
    apply (calls_both w dst ord (fun _ => True) (fun _ => False) False
      (fun e evs _ => occurs e gs -> Forall2 (about w dst) (filter acted (walk ord e)) evs)
      (fun es evs _ => (forall x, In x es -> occurs x gs) -> Forall2 (about w dst) (filter acted (concat (map (walk ord) es))) evs)).
    - intros e evs A _ IH O. rewrite walk_eq. cbn [filter]. unfold acted at 1. rewrite A. apply IH. intros x. now apply kids_occ.
    - intros e call evs A B _ _ IH O. rewrite walk_eq. cbn [filter]. unfold acted at 1. 
      destruct A as [A|A]; rewrite A; (constructor; [exact B|]); apply IH; intros x; now apply kids_occ.
    - intros e o call evs A D _ _ B _ _ IH O. rewrite walk_eq. cbn [filter]. unfold acted at 1. rewrite A. constructor; [exact B|].
      apply IH. intros x. now apply kids_occ.
    - intros e o call evs A D N _ _ _ _ O. now destruct (Plain e o O A D).
    - intros e o call A D N _ _ O. now destruct (Plain e o O A D).
    - intros e call _ [].
    - intros e [].
    - intros _. constructor.
    - intros e es evs1 evs2 _ IH1 _ IH2 O. cbn [map concat]. rewrite filter_app. apply Forall2_app; [apply IH1, O; now left|].
      apply IH2. intros x I. apply O. now right.
  Qed.
End Success.

Section From.
  Variables (fuel : nat) (h : hooks) (dst src : aid) (dc : diffclass) (flags : N) (cb : bool) (given : option diff) (w : world).
  Hypothesis HG : forall d0, given = Some d0 -> deletes_whole (d_groups d0).

  Lemma from_ok w' d : sync_from fuel h dst src dc flags cb given w = (w', Ok d) -> uses fuel dst src dc flags cb given w d.
  Proof.
    intros E. pose proof (sync_from_split fuel h dst src dc flags cb given w) as S. cbv zeta in S. rewrite E in S. cbn [fst snd] in S.
    destruct S as [(_ & _ & (x & X) & _)|(d' & wd & U & _ & _ & _ & R)]; [discriminate|].
    assert (Q : snd (run_sync (mkSEnv src dst flags (diff_len d') cb h fuel) d' wd) = Ok d) by now rewrite <- R.
    apply run_sync_result in Q. now subst d'.
  Qed.

  Lemma from_success w' d : hooks_succeed h -> N.testbit flags 0 = false -> proper_dst w dst -> well_posed w dst (d_groups d) ->
    sync_from fuel h dst src dc flags cb given w = (w', Ok d) ->
    calls_all w dst (dc_order (d_class d)) (fun _ => True) (fun _ => False) False
      (ordered (dc_order (d_class d)) (fun e => e) (d_groups d)) (hook_calls (new_events w w')).
  Proof.
    intros HS H0 HP HC E. pose proof (from_calls fuel h dst src dc flags cb given w d (from_ok _ _ E) HG HP HC w' d E) as K.
    revert K. apply calls_mono; auto.
    - intros ev [N|(N & _)]; [now destruct (succeed_none h ev HS)|congruence].
    - congruence.
  Qed.

  Lemma from_flat w' d : hooks_succeed h -> N.testbit flags 0 = false -> proper_dst w dst -> well_posed w dst (d_groups d) ->
    (forall e o, occurs e (d_groups d) -> e_action e = Some ADelete -> dst_obj w dst e o -> ~ naturally o /\ ~ skips_children (o_flags o)) ->
    sync_from fuel h dst src dc flags cb given w = (w', Ok d) ->
    Forall2 (about w dst) (filter acted (diff_walk d)) (hook_calls (new_events w w')).
  Proof.
    intros HS H0 HP HC HN E. pose proof (from_success w' d HS H0 HP HC E) as K. unfold diff_walk. rewrite ordered_map.
    eapply (proj2 (flat_calls w dst _ (d_groups d) HN)); [exact K|]. intros x Hx. apply ordered_sub, In_children in Hx as (t & g & m & I1 & I2).
    eapply occ_here; eauto.
  Qed.

  Lemma from_order w' d e o : hooks_succeed h -> N.testbit flags 0 = false -> proper_dst w dst -> well_posed w dst (d_groups d) ->
    sync_from fuel h dst src dc flags cb given w = (w', Ok d) ->
    is_reached w dst (dc_order (d_class d)) (d_groups d) e -> e_action e = Some ADelete -> dst_obj w dst e o ->
    exists l1 call below l2, about w dst e call /\
      (if N.testbit (o_flags o) 1 then below = [] else
       calls_all w dst (dc_order (d_class d)) (fun _ => True) (fun _ => False) False (kids_in_order (dc_order (d_class d)) e) below) /\
      hook_calls (new_events w w') =
        if N.testbit (o_flags o) 4 then l1 ++ (below ++ [call]) ++ l2 else l1 ++ (call :: below) ++ l2.
  Proof.
    intros HS H0 HP HC E HR HA HD. pose proof (from_success w' d HS H0 HP HC E) as K.
    destruct (reached_calls w dst _ _ _ K e HR) as (l1 & m & l2 & -> & C).
    assert (NAT : forall x, naturally x <-> N.testbit (o_flags x) 4 = true) by reflexivity.
    assert (SK : forall x, skips_children x <-> N.testbit x 1 = true) by reflexivity.
    inversion C as [? ? A _|? ? ? A B _ _|? o' call evs A D NN NS B _ CK|? o' call evs A D NN NS CK B|? o' call A D NS B _|? ? ? []|? []]; subst; try congruence.
    - destruct A; congruence.
    - rewrite (dst_obj_fun _ _ _ _ _ D HD) in *. rewrite NAT in NN. rewrite SK in NS. apply not_true_is_false in NN, NS. rewrite NN, NS.
      exists l1, call, evs, l2. auto.
    - rewrite (dst_obj_fun _ _ _ _ _ D HD) in *. rewrite NAT in NN. rewrite SK in NS. apply not_true_is_false in NS. rewrite NN, NS.
      exists l1, call, evs, l2. auto.
    - rewrite (dst_obj_fun _ _ _ _ _ D HD) in *. rewrite SK in NS. rewrite NS. exists l1, call, [], l2. split; [exact B|]. split; [reflexivity|].
      now destruct (N.testbit (o_flags o) 4).
  Qed.

  (** ** Any stores *)
  Lemma from_complete w' d : sync_from fuel h dst src dc flags cb given w = (w', Ok d) ->
    exists evs b, new_events w w' = evs ++ closing src dst b /\ (forall ev, In ev evs -> completeb ev = false) /\
      (b = true <-> exists ev, In ev evs /\ attempted ev).
  Proof.
    intros E. pose proof (from_course fuel h dst src dc flags cb given w HG) as S. rewrite E in S.
    destruct S as (pre & F & [(_ & (x & X & _) & _)|(d1 & cl & evs & n & x & _ & _ & A & B)]); [discriminate|].
    destruct x as [b|y]; [|destruct B; discriminate]. destruct B as [_ B]. exists (pre ++ evs), b. 
    split; [apply new_ev; now rewrite B, <- !app_assoc|].
    unfold course_of, run_of_all in A. rewrite kids_run in A. apply steps_plain in A.
    - destruct A as [A1 A2]. split.
      + intros ev I. apply in_app_or in I as [I|I].
        * rewrite Forall_forall in F. destruct (F _ I) as (c & t & ->). reflexivity.
        * destruct (completeb ev) eqn:C; [|reflexivity]. assert (X : In ev (filter completeb evs)) by (apply filter_In; auto). now rewrite A1 in X.
      + specialize (A2 b eq_refl). unfold marks in A2. rewrite A2. split.
        * intros [X|(ev & I & X)]; [discriminate|]. exists ev. split; [apply in_or_app; auto|exact X].
        * intros (ev & I & X). right. apply in_app_or in I as [I|I]; [|eauto]. rewrite Forall_forall in F. destruct (F _ I) as (c & t & ->). destruct X.
    - apply Forall_forall. intros C HC. apply in_map_iff in HC as (y & <- & _). apply run_plain.
  Qed.
  Lemma from_counts d : uses fuel dst src dc flags cb given w d ->
    let w' := fst (sync_from fuel h dst src dc flags cb given w) in
    exists m, m <= diff_len d /\
      filter sync_callback (new_events w w') = if cb then map (fun i => EvCallback "sync" i (diff_len d)) (seq 1 m) else [].
  Proof.
    intros U. pose proof (from_course fuel h dst src dc flags cb given w HG) as S. destruct (sync_from _ _ _ _ _ _ _ _ _) as [w' r]. cbn [fst]. cbv zeta.
    destruct S as (pre & F & [(_ & _ & NU)|(d1 & cl & evs & n & x & U1 & _ & A & B)]); [now destruct (NU d)|].
    pose proof (uses_fun _ _ _ _ _ _ _ _ _ _ U U1) as X. subst d1. exists n. split.
    - unfold course_of, run_of_all in A. rewrite kids_run in A. unfold diff_len, groups_len. rewrite (ordered_map _ (elem_len _)).
      eapply steps_bound in A; [exact A|]. apply Forall2_map_self. intros y _. apply run_bound.
    - assert (CT : counted cb (diff_len d) 0 evs n).
      { unfold course_of, run_of_all in A. rewrite kids_run in A. revert A. apply steps_counted. apply Forall_forall. intros C HCC.
        apply in_map_iff in HCC as (y & <- & _). intros n1 ev1 n2 r1. apply run_counted. }
      destruct CT as [_ CT]. unfold ticks in CT. rewrite Nat.sub_0_r in CT. rewrite <- CT.
      assert (NC : forall b, filter sync_callback (closing src dst b) = []) by now intros [].
      destruct x as [b|y]; destruct B as [_ B].
      + rewrite (new_ev _ _ _ B), !filter_app, (cb_no_sync _ F), NC, app_nil_r. reflexivity.
      + rewrite (new_ev _ _ _ B), !filter_app, (cb_no_sync _ F). reflexivity.
  Qed.
End From.
