(** * DifferLast: the facts about computed diffs in the form used by PropDiffer. *)
From Verif Require Export DifferCount Samples.

Section World.
  Variables (w : world) (src dst : aid) (sa da : adapter) (fuel : nat) (dc : diffclass) (flags : N) (cb : bool).
  Hypothesis OK : w_ok w.
  Hypothesis HS : nth_error (w_ads w) src = Some sa.
  Hypothesis HD : nth_error (w_ads w) dst = Some da.
  Notation run := (snd (diff_from fuel dst src dc flags cb w)).

  Lemma run_tree_ok d : run = Ok d -> tree_ok (d_groups d).
  Proof. intros H. apply (diff_from_iff _ _ _ _ _ _ _ _ _ OK HS HD) in H as (k & F & _). eapply fd_tree_ok; eauto. Qed.
  Lemma run_same d : same_content w src dst ->
    (forall o, exists_in w o -> forall f v, dget (get_attrs o) f = Some v -> py_eq v v = true) ->
    run = Ok d -> diff_has_diffs d = false.
  Proof. intros SC RE H. apply (diff_from_iff _ _ _ _ _ _ _ _ _ OK HS HD) in H as (k & F & _). unfold diff_has_diffs. eapply same_no_diff; eauto. Qed.
  Lemma run_sound d x : run = Ok d -> occurs x (d_groups d) ->
    exists so do, shown flags w src dst sa da so do /\ describes (ad_name sa) (ad_name da) x so do /\ ~ suppressed flags so do.
  Proof.
    intros H O. apply (diff_from_iff _ _ _ _ _ _ _ _ _ OK HS HD) in H as (k & F & _).
    destruct (fd_sound _ _ _ _ _ _ _ _ _ _ F O) as (so & do & S & D). exists so, do. split; [exact S|]. split; [exact D|]. eapply shown_unsuppressed; eauto.
  Qed.
  Lemma run_complete d so do : run = Ok d -> shown flags w src dst sa da so do ->
    exists x, occurs x (d_groups d) /\ describes (ad_name sa) (ad_name da) x so do.
  Proof. intros H S. apply (diff_from_iff _ _ _ _ _ _ _ _ _ OK HS HD) in H as (k & F & _). eapply fd_complete; eauto. Qed.
  Lemma compared_faithful t ss dd ss' dd' d : run = Ok d -> top_lists w src dst sa da t ss dd ->
    compared flags (objs_by w src) (objs_by w dst) ss dd ss' dd' ->
    exists m es k, faithful flags (ad_name sa) (ad_name da) (objs_by w src) (objs_by w dst) (S m) ss' dd' es k.
  Proof.
    intros H T C. apply (diff_from_iff _ _ _ _ _ _ _ _ _ OK HS HD) in H as (k & F & _).
    destruct (fd_top _ _ _ _ _ _ _ _ _ _ _ _ F T) as (es & k' & R & _).
    induction C as [|ss1 dd1 so do ss2 dd2 C IH PA NS CL].
    - destruct fuel as [|m]; [destruct R|]. eauto.
    - destruct IH as (m & es1 & k1 & R1). destruct (faithful_below _ _ _ _ _ _ _ _ _ _ _ _ _ _ R1 PA NS CL) as (e & es2 & k2 & _ & _ & R2 & _).
      destruct m as [|m]; [destruct R2|]. eauto.
  Qed.
  Lemma run_corresponding t ss dd ss' dd' d s d2 : run = Ok d -> top_lists w src dst sa da t ss dd ->
    compared flags (objs_by w src) (objs_by w dst) ss dd ss' dd' -> pair_at ss' dd' (Some s) (Some d2) -> corresponding s d2.
  Proof.
    intros H T C (u & S & D & _). destruct (compared_faithful _ _ _ _ _ _ H T C) as (m & es & k & us & vs & outs & _ & _ & CC & _). eapply CC; eauto.
  Qed.
  Lemma run_order d : filed w src (ad_top sa) -> filed w dst (ad_top da) -> NoDup (ad_top da) -> run = Ok d ->
    sublist (dkeys (d_groups d)) (filter (fun t => smem t (ad_top sa)) (ad_top da)) /\
    (forall t ss dd, top_lists w src dst sa da t ss dd ->
       in_order flags (ad_name sa) (ad_name da) ss dd (dvals (group_of (d_groups d) t))) /\
    (forall x, occurs x (d_groups d) -> exists so do,
       shown flags w src dst sa da so do /\ describes (ad_name sa) (ad_name da) x so do /\
       forall mapping sk t f ss' dd', child_types so do mapping sk -> NoDup (dkeys mapping) -> In (t, f) mapping ->
         kids_of (objs_by w src) so f t = Ok ss' -> kids_of (objs_by w dst) do f t = Ok dd' ->
         in_order flags (ad_name sa) (ad_name da) ss' dd' (dvals (group_of (e_kids x) t))).
  Proof.
    intros FS FD ND H. apply (diff_from_iff _ _ _ _ _ _ _ _ _ OK HS HD) in H as (k & F & _).
    destruct (order_top _ _ _ _ _ _ _ _ _ FS FD ND F) as [A B]. split; [exact A|]. split; [exact B|].
    exact (order_below _ _ _ _ _ _ _ _ _ FS FD F).
  Qed.
  Lemma nested_le rs rd n m : n <= m -> forall ss dd, nested flags rs rd m ss dd -> nested flags rs rd n ss dd.
  Proof.
    revert m. induction n as [|n IH]; intros m L ss dd N; [exact I|]. destruct m as [|m]; [lia|].
    destruct N as (so & do & ss' & dd' & A & B & C & D). exists so, do, ss', dd'. repeat (split; [assumption|]). apply (IH m); [lia|exact D].
  Qed.
  Lemma run_depth n : same_fields w ->
    (forall t l u o, In t (ad_top sa) -> objs_all w src t = Ok l -> with_uid u l = Some o -> ~ generations (objs_by w src) n o) ->
    (forall t l u o, In t (ad_top da) -> objs_all w dst t = Ok l -> with_uid u l = Some o -> ~ generations (objs_by w dst) n o) ->
    n < fuel -> run <> Err ExnRecursionError.
  Proof.
    intros SF G1 G2 L H. destruct (diff_from_rec _ _ _ _ _ _ _ _ _ OK HS HD H) as (t & ss & dd & (I1 & I2 & A1 & A2) & N).
    apply (nested_le _ _ (S n)) in N; [|lia].
    destruct (nested_generations w src dst flags n SF ss dd) as [(u & o & W & G)|(u & o & W & G)];
      [intros o I; exact (objs_all_held _ _ _ _ _ A1 I)|intros o I; exact (objs_all_held _ _ _ _ _ A2 I)|exact N| |].
    - exact (G1 t ss u o I1 A1 W G).
    - exact (G2 t dd u o I2 A2 W G).
  Qed.
  Lemma endless_generations r n : forall o, endless r o -> generations r n o.
  Proof.
    intros o (P & Po & C). revert o Po. induction n as [|n IH]; intros o Po; [exact I|]. destruct (C o Po) as (y & Y & Py). exists y. auto.
  Qed.
  Lemma run_cycle d t ss dd u o : shared_classes w -> no_skip_flags w flags -> top_lists w src dst sa da t ss dd ->
    (with_uid u ss = Some o /\ endless (objs_by w src) o) \/ (with_uid u dd = Some o /\ endless (objs_by w dst) o) ->
    run <> Ok d.
  Proof.
    intros SC [FL NF] T E H. apply (diff_from_iff _ _ _ _ _ _ _ _ _ OK HS HD) in H as (k & F & _).
    destruct (fd_top _ _ _ _ _ _ _ _ _ _ _ _ F T) as (es & k' & R & _). destruct T as (_ & _ & A1 & A2).
    destruct (chain_too_deep w src dst flags SC NF FL _ _ _ _ _ _ _
                (fun o I => objs_all_held _ _ _ _ _ A1 I) (fun o I => objs_all_held _ _ _ _ _ A2 I) R) as [X Y].
    destruct E as [[W E]|[W E]]; [eapply X|eapply Y]; eauto; now apply endless_generations.
  Qed.
End World.

(** a computable version of [reached], for the examples *)
Section ReachFn.
  Variable flags : N.
  Variables rs rd : list string -> string -> result (list obj).
  Definition omapM {A B} (f : A -> option B) : list A -> option (list B) :=
    fix go l := match l with [] => Some [] | x :: l' => match f x, go l' with Some y, Some ys => Some (y :: ys) | _, _ => None end end.
  Lemma omapM_ok {A B} (f : A -> option B) l ys : omapM f l = Some ys -> Forall2 (fun x y => f x = Some y) l ys.
  Proof.
    revert ys. induction l as [|x l IH]; intros ys H; simpl in H; [injection H as <-; constructor|].
    destruct (f x) as [y|] eqn:E; [|discriminate]. destruct (omapM f l) as [ys'|]; [|discriminate]. injection H as <-. constructor; auto.
  Qed.
  Definition below_fn (rec : string -> list obj -> list obj -> option (list key * list key)) (so do : option obj) : option (list key * list key) :=
    if skip_pair flags so do then Some ([], [])
    else match snd (pchildren_mapping so do) with
         | Ok mapping =>
             match omapM (fun tf => match kids_of rs so (snd tf) (fst tf), kids_of rd do (snd tf) (fst tf) with
                                    | Ok ss, Ok dd => rec (fst tf) ss dd | _, _ => None end) mapping with
             | Some kids => Some (lone_refs so do ++ flat_map fst kids, lone_refs do so ++ flat_map snd kids)
             | None => None
             end
         | Err _ => None
         end.
  Fixpoint reach_fn (n : nat) (t : string) (ss dd : list obj) : option (list key * list key) :=
    match n with
    | O => None
    | S n' => match rmapM get_unique_id ss, rmapM get_unique_id dd with
              | Ok us, Ok vs =>
                  match omapM (fun u => below_fn (reach_fn n') (with_uid u ss) (with_uid u dd)) (keep_first (us ++ vs)) with
                  | Some outs => Some (map (pair t) us ++ flat_map fst outs, map (pair t) vs ++ flat_map snd outs)
                  | None => None
                  end
              | _, _ => None
              end
    end.
  Lemma rmapM_uids l us : rmapM get_unique_id l = Ok us -> map get_unique_id l = map Ok us.
  Proof.
    revert us. induction l as [|o l IH]; intros us H; simpl in H; [injection H as <-; reflexivity|].
    destruct (get_unique_id o) as [u|] eqn:E; [|discriminate]. simpl in H. destruct (rmapM get_unique_id l) as [us'|]; [|discriminate].
    injection H as <-. simpl. rewrite E. f_equal. auto.
  Qed.
  Lemma reach_fn_ok n : forall t ss dd A B, reach_fn n t ss dd = Some (A, B) -> reached flags rs rd n t ss dd A B.
  Proof.
    induction n as [|n IH]; intros t ss dd A B H; [discriminate|]. cbn [reach_fn] in H.
    destruct (rmapM get_unique_id ss) as [us|] eqn:E1; [|discriminate]. destruct (rmapM get_unique_id dd) as [vs|] eqn:E2; [|discriminate].
    match type of H with match ?x with _ => _ end = _ => destruct x as [outs|] eqn:E3; [|discriminate] end. injection H as <- <-.
    exists us, vs, outs. split; [now apply rmapM_uids|]. split; [now apply rmapM_uids|]. split; [|auto].
    apply omapM_ok in E3. refine (Forall2_if _ _ _ _ _ E3). clear E3. intros u [A B] H. cbn [fst snd]. unfold below_fn in H.
    destruct (skip_pair flags (with_uid u ss) (with_uid u dd)) eqn:SP.
    - injection H as <- <-. left. split; [now apply skip_pair_spec|auto].
    - right. split; [intros S; apply skip_pair_spec in S; congruence|].
      destruct (pchildren_mapping (with_uid u ss) (with_uid u dd)) as [ks [mapping|]] eqn:PM; [|discriminate]. cbn [snd] in H.
      match type of H with match ?x with _ => _ end = _ => destruct x as [kids|] eqn:E4; [|discriminate] end. injection H as <- <-.
      exists mapping, (list_sum ks), kids. split; [now apply child_types_ok|]. split; [|auto].
      apply omapM_ok in E4. refine (Forall2_if _ _ _ _ _ E4). intros [t' f] [A B] K. cbn [fst snd] in *.
      destruct (kids_of rs (with_uid u ss) f t') as [ss'|]; [|discriminate]. destruct (kids_of rd (with_uid u dd) f t') as [dd'|]; [|discriminate].
      exists ss', dd'. auto.
  Qed.
End ReachFn.

(** the sample worlds satisfy the hypotheses *)
Definition w_okb (w : world) : bool :=
  forallb (fun ad => match ad_store ad with
                     | SLocal d => forallb (fun mb => forallb (fun ur => Nat.ltb (snd ur) (length (w_heap w))) (snd mb)) d
                     | SRedis _ => true end) (w_ads w).
Lemma w_okb_ok w : w_okb w = true -> w_ok w.
Proof.
  unfold w_okb. rewrite forallb_forall. intros H a ad d m b u r E ES I1 I2. apply nth_error_In in E. specialize (H _ E). rewrite ES in H.
  rewrite forallb_forall in H. specialize (H _ I1). rewrite forallb_forall in H. specialize (H _ I2). now apply Nat.ltb_lt in H.
Qed.
Lemma w0_ok : w_ok w0.
Proof. apply w_okb_ok. reflexivity. Qed.

Lemma filed_local w a ad d : nth_error (w_ads w) a = Some ad -> ad_store ad = SLocal d ->
  (forall m u r o, dget (bucket d m) u = Some r -> nth_error (w_heap w) r = Some o -> get_type o = m) ->
  (forall m, NoDup (dkeys (bucket d m))) -> forall tops, filed w a tops.
Proof.
  intros H E K ND tops. split.
  - intros t l o _ A I. unfold objs_all in A. rewrite H, E in A. unfold deref in A.
    destruct (rmapM_In_iff _ _ _ _ A I) as (r & J & N). destruct (nth_error (w_heap w) r) eqn:R; [|discriminate]. injection N as ->.
    apply in_map_iff in J as ([u r'] & X & J). simpl in X. subst r'. eapply K; eauto. apply In_dget; eauto.
  - intros us t l o _ A I. unfold objs_by in A. rewrite H, E in A. destruct us as [|u0 us]; [injection A as <-; destruct I|].
    destruct (rmapM _ (u0 :: us)) as [refs|] eqn:X; [|discriminate]. cbn [rbind] in A. unfold deref in A.
    destruct (rmapM_In_iff _ _ _ _ A I) as (r & J & N). destruct (nth_error (w_heap w) r) eqn:R; [|discriminate]. injection N as ->.
    destruct (rmapM_In_iff _ _ _ _ X J) as (u & _ & G). destruct (dget (bucket d t) u) as [r'|] eqn:B; [|discriminate]. injection G as <-. eapply K; eauto.
Qed.

(** ** Mismatched pairs are reported as TypeError or ValueError *)
Lemma validate_kind l : (forall s d, In (Some s, Some d) l -> (exists n, get_shortname s = Ok n) /\ (exists n, get_shortname d = Ok n)) ->
  validate_pairs l = Ok tt \/ validate_pairs l = Err ExnTypeError \/ validate_pairs l = Err ExnValueError.
Proof.
  induction l as [|[[s|] [d|]] l IH]; intros H; cbn [validate_pairs]; try (simpl; now left); try (apply IH; intros; apply H; now right).
  destruct (H s d (or_introl eq_refl)) as [[n N] [m M]]. simpl. destruct (negb (String.eqb (get_type s) (get_type d))); [simpl; auto|].
  rewrite N, M. simpl. destruct (negb (String.eqb n m)); [simpl; auto|]. destruct (negb (dict_eq _ _)); [simpl; auto|]. simpl.
  apply IH. intros; apply H; now right.
Qed.
Lemma list_mismatch n env ss dd us vs st u s d :
  map get_unique_id ss = map Ok us -> map get_unique_id dd = map Ok vs ->
  (forall o, In o ss \/ In o dd -> exists n, get_shortname o = Ok n) ->
  with_uid u ss = Some s -> with_uid u dd = Some d -> ~ corresponding s d ->
  let r := snd (diff_object_list (S n) env ss dd st) in r = Err ExnTypeError \/ r = Err ExnValueError.
Proof.
  intros E1 E2 SN W1 W2 NC. cbn [diff_object_list]. unfold diff_list_body.
  destruct (index_ok ss us [] E1) as (ds & X1 & _). destruct (index_ok dd vs [] E2) as (de & X2 & _).
  unfold bind, lift. rewrite X1, X2. pose proof (pair_up_spec _ _ _ _ _ _ E1 E2 X1 X2) as PU. rewrite PU.
  set (l := map (fun u => (u, (with_uid u ss, with_uid u dd))) (keep_first (us ++ vs))).
  assert (V : validate_pairs (dvals l) = Err ExnTypeError \/ validate_pairs (dvals l) = Err ExnValueError).
  { destruct (validate_kind (dvals l)) as [H|[H|H]]; auto.
    - intros s' d' I. unfold l, dvals in I. rewrite map_map in I. apply in_map_iff in I as (v & E & _). simpl in E. injection E as S D.
      apply with_uid_Some in S as [S _]. apply with_uid_Some in D as [D _]. auto.
    - exfalso. apply NC. rewrite validate_pairs_ok in H. apply H. unfold l, dvals. rewrite map_map. apply in_map_iff. exists u.
      split; [simpl; congruence|]. rewrite In_keep_first, in_app_iff. left.
      apply with_uid_Some in W1 as [I U]. assert (J : In (Ok u) (map Ok us)) by (rewrite <- E1, <- U; now apply in_map).
      apply in_map_iff in J as (v & V & J). now injection V as ->. }
  clearbody l. destruct (incr_models_processed _ _ _) as [s1 [[]|e]] eqn:T.
  - destruct V as [V|V]; rewrite V; simpl; auto.
  - unfold incr_models_processed in T. destruct (_ + _)%nat; discriminate.
Qed.

Lemma skip_nonneg fuel dst src dc flags cb w sa da d : w_ok w ->
  nth_error (w_ads w) src = Some sa -> nth_error (w_ads w) dst = Some da -> yields_once (dc_order dc) ->
  snd (diff_from fuel dst src dc flags cb w) = Ok d ->
  (0 <= diff_skip d)%Z /\ Z.of_nat (d_processed d) = (Z.of_nat (tree_sides (d_groups d)) + diff_skip d)%Z.
Proof.
  intros OK HS HD Y H. destruct (diff_skip_spec _ _ _ _ _ _ _ _ _ _ OK HS HD Y H) as (k & F & E).
  apply (diff_from_iff _ _ _ _ _ _ _ _ _ OK HS HD) in H as (k' & F' & _ & N). rewrite E. split; [lia|].
  assert (k = k'); [|subst; lia].
  (* both counts belong to the same tree *)
  assert (X : snd (diff_from fuel dst src dc flags cb w) = Ok (mkDiff dc (d_groups d) (tree_sides (d_groups d) + k))).
  { apply (diff_from_iff _ _ _ _ _ _ _ _ _ OK HS HD). exists k. auto. }
  assert (X' : snd (diff_from fuel dst src dc flags cb w) = Ok (mkDiff dc (d_groups d) (tree_sides (d_groups d) + k'))).
  { apply (diff_from_iff _ _ _ _ _ _ _ _ _ OK HS HD). exists k'. auto. }
  rewrite X in X'. injection X' as X'. lia.
Qed.
Lemma run_order_top w src dst sa da fuel dc flags cb : w_ok w ->
  nth_error (w_ads w) src = Some sa -> nth_error (w_ads w) dst = Some da ->
  forall d, filed w src (ad_top sa) -> filed w dst (ad_top da) -> NoDup (ad_top da) ->
  snd (diff_from fuel dst src dc flags cb w) = Ok d ->
  sublist (groups d) (filter (fun t => smem t (ad_top sa)) (ad_top da)) /\
  (forall t e, In e (dvals (group_of (d_groups d) t)) -> In t (ad_top sa) /\ In t (ad_top da)) /\
  (forall t ss dd, top_lists w src dst sa da t ss dd ->
     in_order flags (ad_name sa) (ad_name da) ss dd (dvals (group_of (d_groups d) t))).
Proof.
  intros OK HS HD d FS FD ND H. destruct (run_order w src dst sa da fuel dc flags cb OK HS HD d FS FD ND H) as (A & B & _).
  split; [exact A|]. split; [|exact B]. intros t e I.
  assert (K : In t (dkeys (d_groups d))).
  { unfold group_of in I. destruct (dget (d_groups d) t) eqn:G; [eapply dget_Some_key; eauto|destruct I]. }
  apply (sublist_incl _ _ A), filter_In in K as [K1 K2]. now apply smem_In in K2.
Qed.

Ltac each_obj H := unfold exists_in in H; simpl in H;
  repeat (destruct H as [H|H]; [subst|]); try contradiction.
Lemma w0_dicts : proper_dicts w0.
Proof.
  assert (X : Forall (fun o => NoDup (dkeys (o_vals o))) heap0).
  { repeat constructor; simpl; intuition discriminate. }
  intros o [I|[]]. rewrite Forall_forall in X. exact (X o I).
Qed.
Lemma w0_flags : symmetric_flags w0.
Proof.
  assert (X : Forall (fun o => N.testbit (o_flags o) 2 = N.testbit (o_flags o) 3) heap0) by (repeat constructor).
  intros o [I|[]]. rewrite Forall_forall in X. exact (X o I).
Qed.
Lemma w0_classes : shared_classes w0.
Proof.
  assert (X : Forall (fun o => Some (o_cls o) = dget s_classes (get_type o)) heap0) by (repeat constructor).
  rewrite Forall_forall in X. intros o o' [I|[]] [I'|[]] T. pose proof (X o I) as A. pose proof (X o' I') as B. rewrite T in A. congruence.
Qed.
Lemma agrees_all l : Forall2 agrees l l.
Proof. induction l; constructor; auto. apply agrees_refl. Qed.

Definition filedb (w : world) (d : dict (dict ref)) : bool :=
  forallb (fun mb => forallb (fun ur => match nth_error (w_heap w) (snd ur) with Some o => String.eqb (get_type o) (fst mb) | None => true end) (snd mb)) d.
Lemma filedb_ok w a ad d : nth_error (w_ads w) a = Some ad -> ad_store ad = SLocal d -> filedb w d = true ->
  (forall mb, In mb d -> NoDup (dkeys (snd mb))) -> forall tops, filed w a tops.
Proof.
  intros H E B ND. unfold filedb in B. rewrite forallb_forall in B. apply (filed_local w a ad d H E).
  - intros m u r o G N. unfold bucket in G. destruct (dget d m) as [b|] eqn:D; [|discriminate].
    specialize (B _ (dget_Some_In _ _ _ D)). rewrite forallb_forall in B. specialize (B _ (dget_Some_In _ _ _ G)). simpl in B.
    rewrite N in B. now apply String.eqb_eq.
  - intros m. unfold bucket. destruct (dget d m) as [b|] eqn:D; [|constructor]. exact (ND _ (dget_Some_In _ _ _ D)).
Qed.
Lemma w_sample_src_filed w sa : w_heap w = heap0 -> nth_error (w_ads w) 0 = Some sa -> ad_store sa = SLocal src_data -> forall tops, filed w 0 tops.
Proof.
  intros EH E S. apply (filedb_ok w 0 sa src_data E S); [unfold filedb; rewrite EH; reflexivity|].
  intros mb I. simpl in I. repeat (destruct I as [<-|I]; [repeat constructor; simpl; intuition discriminate|]). destruct I.
Qed.
Lemma w_sample_dst_filed w da : w_heap w = heap0 -> nth_error (w_ads w) 1 = Some da -> ad_store da = SLocal dst_data -> forall tops, filed w 1 tops.
Proof.
  intros EH E S. apply (filedb_ok w 1 da dst_data E S); [unfold filedb; rewrite EH; reflexivity|].
  intros mb I. simpl in I. repeat (destruct I as [<-|I]; [repeat constructor; simpl; intuition discriminate|]). destruct I.
Qed.
Lemma NoDup_perm_b (l m : list key) : 
  forallb (fun x => existsb (fun y => String.eqb (fst x) (fst y) && String.eqb (snd x) (snd y)) m) l = true -> NoDup l -> length m <= length l -> Permutation l m.
Proof.
  intros H ND L. apply NoDup_Permutation_bis; auto. rewrite forallb_forall in H. intros [a b] I. specialize (H _ I).
  apply existsb_exists in H as ([c d] & J & E). apply andb_true_iff in E as [E1 E2]. apply String.eqb_eq in E1, E2. simpl in *. now subst.
Qed.
Lemma w0_reached : exists sa da A B, nth_error (w_ads w0) 0 = Some sa /\ nth_error (w_ads w0) 1 = Some da /\
    reached_diff 0 20 w0 0 1 sa da A B /\ Permutation A (stored_keys src_data) /\ Permutation B (stored_keys dst_data).
Proof.
  eexists _, _, _, _. split; [reflexivity|]. split; [reflexivity|]. split.
  - exists [], []. eexists [(_, _)]. split; [constructor|]. split; [simpl; intuition|]. split; [constructor|]. split; [|split; reflexivity].
    constructor; [|constructor]. eexists _, _. split; [reflexivity|]. split; [reflexivity|]. apply reach_fn_ok. vm_compute. reflexivity.
  - split; (apply NoDup_perm_b; [vm_compute; reflexivity|vm_compute; repeat constructor; simpl; intuition discriminate|vm_compute; lia]).
Qed.
