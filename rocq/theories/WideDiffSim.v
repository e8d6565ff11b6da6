(** * WideDiffSim: with user code that only reads, the wide calculation is the plain one up to the first exception. *)
From Verif Require Export PureDiffer WideDiffSpec.

Fixpoint told_by (total n : nat) (ks : list nat) : list dcall :=
  match ks with
  | [] => []
  | O :: ks' => told_by total n ks'
  | k :: ks' => DProgress (n + k) total :: told_by total (n + k) ks'
  end.
Lemma told_app total n ks ks' : told_by total n (ks ++ ks') = told_by total n ks ++ told_by total (n + list_sum ks) ks'.
Proof.
  revert n. induction ks as [|k ks IH]; intros n; [cbn; now rewrite Nat.add_0_r|].
  change (list_sum (k :: ks)) with (k + list_sum ks). rewrite Nat.add_assoc.
  destruct k; simpl app; cbn [told_by]; rewrite IH; [now rewrite Nat.add_0_r|reflexivity].
Qed.
Lemma told_events total ks : forall n, flat_map call_of_event (callbacks total n ks) = told_by total n ks.
Proof.
  induction ks as [|k ks IH]; intros n; [reflexivity|]. destruct k; cbn [callbacks told_by flat_map]; rewrite IH; reflexivity.
Qed.

(** the objects behind references *)
Definition pts (w : world) (r : ref) (o : obj) : Prop := nth_error (w_heap w) r = Some o.
Definition opts (w : world) (r : option ref) (o : option obj) : Prop :=
  match r, o with Some r, Some o => pts w r o | None, None => True | _, _ => False end.
Definition ptd (w : world) : dict ref -> dict obj -> Prop := Forall2 (fun a b => fst a = fst b /\ pts w (snd a) (snd b)).
Definition ptp (w : world) : dict (option ref * option ref) -> dict (option obj * option obj) -> Prop :=
  Forall2 (fun a b => fst a = fst b /\ opts w (fst (snd a)) (fst (snd b)) /\ opts w (snd (snd a)) (snd (snd b))).
Definition sameval {A} (_ : world) (a b : A) : Prop := a = b.

Lemma pts_mono w w' r o : read_only w w' -> pts w r o -> pts w' r o.
Proof. intros ([n E] & _) H. unfold pts in *. rewrite E. rewrite nth_error_app1; [exact H|]. apply nth_error_Some. congruence. Qed.
Lemma opts_mono w w' r o : read_only w w' -> opts w r o -> opts w' r o.
Proof. intros R. destruct r, o; simpl; auto. now apply pts_mono. Qed.
Lemma ptd_mono w w' a b : read_only w w' -> ptd w a b -> ptd w' a b.
Proof. intros R H. induction H as [|x y a b [E P] H IH]; constructor; auto. split; [exact E|]. eapply pts_mono; eauto. Qed.
Lemma ptp_mono w w' a b : read_only w w' -> ptp w a b -> ptp w' a b.
Proof. intros R H. induction H as [|x y a b (E & P & Q) H IH]; constructor; auto. split; [exact E|]. split; eapply opts_mono; eauto. Qed.
Lemma ptl_mono w w' a b : read_only w w' -> Forall2 (pts w) a b -> Forall2 (pts w') a b.
Proof. intros R H. induction H; constructor; auto. eapply pts_mono; eauto. Qed.

Lemma ptd_get w a b k : ptd w a b -> opts w (dget a k) (dget b k).
Proof.
  intros H. induction H as [|[x r] [y o] a b [E P] H IH]; simpl in *; [exact I|]. subst y. destruct (String.eqb k x); [exact P|exact IH].
Qed.
Lemma ptd_keys w a b : ptd w a b -> dkeys a = dkeys b.
Proof. intros H. induction H as [|[x r] [y o] a b [E P] H IH]; simpl in *; congruence. Qed.
Lemma ptd_set w a b k r o : ptd w a b -> pts w r o -> ptd w (dset a k r) (dset b k o).
Proof.
  intros H P. induction H as [|[x r'] [y o'] a b [E Q] H IH]; simpl in *; [now repeat constructor|]. subst y.
  destruct (String.eqb k x); constructor; simpl; auto.
Qed.
Lemma ptp_set w a b k so do s d : ptp w a b -> opts w so s -> opts w do d -> ptp w (dset a k (so, do)) (dset b k (s, d)).
Proof.
  intros H P P'. induction H as [|[x r'] [y o'] a b (E & Q & Q') H IH]; simpl in *; [now repeat constructor|]. subst y.
  destruct (String.eqb k x); constructor; simpl; auto.
Qed.
Lemma ptp_pair w a b c d : ptd w a c -> ptd w b d -> ptp w (pair_refs a b) (pair_up c d).
Proof.
  intros H K. unfold pair_refs, pair_up. rewrite <- (ptd_keys _ _ _ H), <- (ptd_keys _ _ _ K).
  assert (F : forall ks x y, ptp w x y -> ptp w (fold_left (fun c uid => dset c uid (dget a uid, dget b uid)) ks x)
                                             (fold_left (fun e uid => dset e uid (dget c uid, dget d uid)) ks y)).
  { induction ks as [|k ks IH]; intros x y P; simpl; [exact P|]. apply IH. apply ptp_set; auto; now apply ptd_get. }
  apply F, F. constructor.
Qed.
Lemma Forall2_len {A B} (P : A -> B -> Prop) l m : Forall2 P l m -> length l = length m.
Proof. intros H. induction H; simpl; congruence. Qed.

Section Sim.
  Variables (env : wdenv) (D : duser) (w : world).
  Hypothesis OK : w_ok w.
  Hypothesis HD : reading D.

  Definition called (n : nat) (ks : list nat) : list dcall := if du_cb D then told_by (wd_total env) n ks else [].
  Lemma called_app n ks ks' : called n (ks ++ ks') = called n ks ++ called (n + list_sum ks) ks'.
  Proof. unfold called. destruct (du_cb D); [apply told_app|reflexivity]. Qed.

  (** all of it, or cut short by an exception *)
  Definition dsim (w0 : world) {A B} (R : world -> A -> B -> Prop) (m : M dwstate A) (p : W B) : Prop :=
    forall s, read_only w0 (dw_w s) -> exists l,
      dw_log (fst (m s)) = dw_log s ++ l /\ read_only (dw_w s) (dw_w (fst (m s))) /\
      ((Forall no_raise l /\ dw_n (fst (m s)) = dw_n s + list_sum (fst p) /\ map de_call l = called (dw_n s) (fst p) /\
        match snd (m s), snd p with Ok a, Ok b => R (dw_w (fst (m s))) a b | Err e, Err e' => e = e' | _, _ => False end) \/
       (exists l0 u x ks1 ks2, l = l0 ++ [u] /\ Forall no_raise l0 /\ de_result u = Err x /\ snd (m s) = Err x /\
          fst p = ks1 ++ ks2 /\ map de_call l = called (dw_n s) ks1)).

  Lemma called_nil n : called n [] = [].
  Proof. unfold called. now destruct (du_cb D). Qed.
  Lemma dsim_pure w0 {A B} (R : world -> A -> B -> Prop) (m : M dwstate A) (r : result B) :
    (forall s, read_only w0 (dw_w s) -> exists w', fst (m s) = mkDW w' (dw_n s) (dw_log s) /\ read_only (dw_w s) w' /\
       match snd (m s), r with Ok a, Ok b => R w' a b | Err e, Err e' => e = e' | _, _ => False end) ->
    dsim w0 R m (wlift r).
  Proof.
    intros H s RO. destruct (H s RO) as (w' & E & R' & X). exists []. rewrite E. cbn [dw_log dw_w dw_n fst snd wlift map list_sum].
    rewrite app_nil_r. split; [reflexivity|]. split; [exact R'|]. left. split; [constructor|]. split; [simpl; lia|]. split; [|exact X].
    now rewrite called_nil.
  Qed.
  Lemma dsim_ret w0 {A B} (R : world -> A -> B -> Prop) a b : (forall w1, read_only w0 w1 -> R w1 a b) -> dsim w0 R (ret a) (wret b).
  Proof.
    intros H. apply (dsim_pure w0 R (ret a) (Ok b)). intros s RO. exists (dw_w s). split; [now destruct s|].
    split; [apply read_only_refl|]. simpl. auto.
  Qed.
  Lemma dsim_lift w0 {A} (r : result A) : dsim w0 sameval (lift r) (wlift r).
  Proof.
    apply dsim_pure. intros s RO. exists (dw_w s). split; [now destruct s|]. split; [apply read_only_refl|]. simpl. destruct r; reflexivity.
  Qed.
  Lemma dsim_raise w0 {A B} (R : world -> A -> B -> Prop) e : dsim w0 R (raise e) (wlift (Err e)).
  Proof.
    apply dsim_pure. intros s RO. exists (dw_w s). split; [now destruct s|]. split; [apply read_only_refl|]. reflexivity.
  Qed.
  Lemma dsim_bind w0 {A B A' B'} (R : world -> A -> B -> Prop) (R' : world -> A' -> B' -> Prop) m p k q :
    dsim w0 R m p -> (forall w1 a b, read_only w0 w1 -> R w1 a b -> dsim w1 R' (k a) (q b)) -> dsim w0 R' (bind m k) (wbind p q).
  Proof.
    intros H K s RO. destruct (H s RO) as (l & L & R1 & C). unfold bind, wbind.
    destruct C as [(F & N & T & V)|(l0 & u & x & ks1 & ks2 & El & F & EU & ER & Ep & T)].
    - destruct (m s) as [s1 [a|e]]; cbn [fst snd] in *; destruct (snd p) as [b|e']; try contradiction.
      + destruct (K (dw_w s1) a b) with (s := s1) as (l' & L' & R2 & C').
        * eapply read_only_trans; eauto.
        * exact V.
        * apply read_only_refl.
        * exists (l ++ l'). split; [rewrite L', L; now rewrite app_assoc|]. split; [eapply read_only_trans; eauto|].
          destruct C' as [(F' & N' & T' & V')|(l0 & u & x & ks1 & ks2 & El & F' & EU & ER & Ep & T')]; [left|right].
          -- split; [now apply Forall_app|]. cbn [fst snd]. split; [rewrite N', N, list_sum_app; lia|].
             split; [|exact V']. rewrite map_app, T, T', N. now rewrite called_app.
          -- exists (l ++ l0), u, x, (fst p ++ ks1), ks2. split; [rewrite El; now rewrite app_assoc|].
             split; [now apply Forall_app|]. split; [exact EU|]. split; [exact ER|]. cbn [fst]. split; [rewrite Ep; now rewrite app_assoc|].
             rewrite map_app, T, T', N. now rewrite called_app.
      + exists l. subst e'. split; [exact L|]. split; [exact R1|]. left. cbn [fst snd]. auto.
    - destruct (m s) as [s1 r]; cbn [fst snd] in *. subst r. exists l. split; [exact L|]. split; [exact R1|]. right.
      exists l0, u, x, ks1. cbn [fst]. destruct (snd p) as [b|e']; cbn [fst snd]; [exists (ks2 ++ fst (q b))|exists ks2]; rewrite Ep, ?app_assoc; auto 10.
  Qed.
  (** reading first, which the plain calculation did not need *)
  Lemma dsim_before w0 {A A' B'} (R : world -> A -> unit -> Prop) (R' : world -> A' -> B' -> Prop) (m : M dwstate A) k q :
    dsim w0 R m (wret tt) -> (forall w1 a, read_only w0 w1 -> R w1 a tt -> dsim w1 R' (k a) q) -> dsim w0 R' (bind m k) q.
  Proof.
    intros H K. assert (E : wbind (wret tt) (fun _ : unit => q) = q) by (unfold wbind, wret; destruct q; reflexivity).
    rewrite <- E. eapply dsim_bind; [exact H|]. intros w1 a []. apply K.
  Qed.
  Lemma dsim_tick w0 n : dsim w0 sameval (wd_incr env D n) (wtick n).
  Proof.
    intros s RO. destruct n as [|n].
    - exists []. cbn. rewrite app_nil_r. split; [reflexivity|]. split; [apply read_only_refl|]. left.
      split; [constructor|]. split; [lia|]. split; [|reflexivity]. unfold called. now destruct (du_cb D).
    - unfold wd_incr, bind, modify, get_state. cbn [dw_n].
      destruct (du_cb D) eqn:CB.
      + unfold call_duser. cbn [dw_w dw_n dw_log fst snd].
        destruct (du_progress D (dw_n s + S n) (wd_total env) (dw_w s)) as [w' r] eqn:E.
        pose proof (HD (DProgress (dw_n s + S n) (wd_total env)) (dw_w s)) as RO'. cbn [run_dcall] in RO'. rewrite E in RO'. cbn [fst snd dw_w] in *.
        eexists. split; [reflexivity|]. split; [exact RO'|]. destruct r as [[]|x].
        * left. split; [repeat constructor|]. split; [simpl; lia|]. split; [|reflexivity].
          unfold called. rewrite CB. reflexivity.
        * right. exists [], (mkDE (dw_w s) (DProgress (dw_n s + S n) (wd_total env)) w' (Err x)), x, [S n], []. repeat split; auto.
          unfold called. rewrite CB. reflexivity.
      + exists []. cbn. rewrite app_nil_r. split; [reflexivity|]. split; [apply read_only_refl|]. left.
        split; [constructor|]. split; [lia|]. split; [|reflexivity]. unfold called. now rewrite CB.
  Qed.
  Lemma dsim_forM w0 {A} (l : list A) f g : (forall w1 x, read_only w0 w1 -> dsim w1 sameval (f x) (g x)) -> dsim w0 sameval (forM l f) (wforM l g).
  Proof.
    intros H. cut (forall w1, read_only w0 w1 -> dsim w1 sameval (forM l f) (wforM l g)); [intros K; apply K, read_only_refl|].
    induction l as [|x l IH]; intros w1 R1; simpl.
    - apply dsim_ret. intros; reflexivity.
    - eapply dsim_bind; [now apply H|]. intros w2 [] [] R2 _. apply IH. eapply read_only_trans; eauto.
  Qed.

  (** *** reads *)
  Lemma dsim_hget w0 r o : pts w0 r o -> dsim w0 (fun w1 a _ => a = o) (rlift (hget r)) (wret tt).
  Proof.
    intros P. apply (dsim_pure w0 _ (rlift (hget r)) (Ok tt)). intros s RO. exists (dw_w s).
    pose proof (pts_mono _ _ _ _ RO P) as P'. unfold pts in P'. unfold rlift, hget. rewrite P'. cbn.
    split; [reflexivity|]. split; [apply read_only_refl|reflexivity].
  Qed.
  Lemma dsim_oget w0 r o : opts w0 r o -> dsim w0 (fun w1 a _ => a = o) (oget r) (wret tt).
  Proof.
    destruct r as [r|], o as [o|]; simpl; try contradiction.
    - intros P. eapply dsim_before; [eapply dsim_hget; eassumption|]. intros w1 a _ ->. apply dsim_ret. intros; reflexivity.
    - intros _. apply dsim_ret. intros; reflexivity.
  Qed.
  Lemma dsim_adapter w0 a ad : read_only w w0 -> nth_error (w_ads w) a = Some ad ->
    dsim w0 (fun w1 x _ => ad_name x = ad_name ad /\ ad_top x = ad_top ad) (rlift (get_adapter a)) (wret tt).
  Proof.
    intros R0 E. apply (dsim_pure w0 _ (rlift (get_adapter a)) (Ok tt)). intros s RO. exists (dw_w s).
    pose proof (read_only_trans _ _ _ R0 RO) as (_ & _ & F).
    pose proof (Forall2_nth _ _ _ a F) as X. rewrite E in X. destruct X as (ad' & E' & st & -> & _).
    unfold rlift, get_adapter. rewrite E'. cbn. split; [now destruct s|]. split; [apply read_only_refl|]. split; reflexivity.
  Qed.
  Lemma deref_pts w1 rs os : deref w1 rs = Ok os -> Forall2 (pts w1) rs os.
  Proof.
    unfold deref. revert os. induction rs as [|r rs IH]; intros os H; simpl in H.
    - injection H as <-. constructor.
    - destruct (nth_error (w_heap w1) r) as [o|] eqn:E; [|discriminate]. simpl in H.
      match type of H with context [rmapM ?f rs] => destruct (rmapM f rs) as [os'|] end; [|discriminate].
      simpl in H. injection H as <-. constructor; [exact E|]. now apply IH.
  Qed.
  Lemma deref_there w1 rs : Forall (fun r => r < length (w_heap w1)) rs -> exists os, deref w1 rs = Ok os.
  Proof.
    unfold deref. intros H. induction H as [|r rs L F [os E]]; [now exists []|]. simpl.
    destruct (nth_error (w_heap w1) r) as [o|] eqn:X; [|apply nth_error_None in X; lia]. simpl. rewrite E. simpl. now eexists.
  Qed.
  Lemma get_all_eq a t w1 : w_ok w1 -> exists w' r, st_get_all a (MName t) w1 = (w', r) /\ read_only w1 w' /\
    match r, objs_all w1 a t with Ok rs, Ok os => deref w' rs = Ok os | Err e, Err e' => e = e' | _, _ => False end.
  Proof.
    intros K. unfold objs_all. destruct (nth_error (w_ads w1) a) as [ad|] eqn:E.
    2:{ exists w1, (Err DanglingRef). split; [|split; [apply read_only_refl|reflexivity]]. unfold st_get_all, bind, get_adapter. now rewrite E. }
    destruct (ad_store ad) as [d|sid] eqn:ES.
    - exists (upd_store w1 a (SLocal (touch d t))), (Ok (dvals (bucket d t))).
      split; [apply (st_get_all_local a (MName t) w1 ad d (conj E ES))|]. split; [eapply read_only_touch; split; eauto|].
      destruct (deref_there w1 (dvals (bucket d t))) as [os EO].
      { eapply w_ok_bucket; eauto. }
      rewrite EO. unfold deref in *. rewrite upd_store_heap. exact EO.
    - assert (G : st_get_all a (MName t) w1 =
        mapM (redis_load a) (filter (glob (store_label sid ++ ":" ++ t ++ ":*")%string) (dkeys (w_redis w1))) w1).
      { unfold st_get_all, bind at 1, get_adapter. rewrite E, ES. reflexivity. }
      revert G. generalize (filter (glob (store_label sid ++ ":" ++ t ++ ":*")%string) (dkeys (w_redis w1))) as keys.
      intros keys G. destruct (redis_loads a keys w1) as (news & rs & r & X & Y).
      exists (set_heap w1 (w_heap w1 ++ news)), r. split; [now rewrite G|]. split; [apply read_only_news|].
      match type of Y with context [rmapM ?f ?l] => destruct (rmapM f l) as [os|e] end.
      + destruct Y as (-> & -> & ->). apply (deref_seq _ (w_heap w1)). reflexivity.
      + subst r. reflexivity.
  Qed.
  Lemma st_by_uids_valid us : forall a t w1 w' rs, w_ok w1 -> st_get_by_uids a us (MName t) w1 = (w', Ok rs) ->
    read_only w1 w' /\ Forall (fun r => r < length (w_heap w')) rs.
  Proof.
    induction us as [|u us IH]; intros a t w1 w' rs K E.
    - cbn in E. injection E as <- <-. split; [apply read_only_refl|constructor].
    - unfold st_get_by_uids in E. simpl in E.
      match type of E with context [mapM ?f us] => change (mapM f us) with (st_get_by_uids a us (MName t)) in E end.
      assert (ONE : forall X : M world ref, X = (ad <- get_adapter a;; match ad_store ad with
            | SLocal d => put_store a (SLocal (touch d t));;; match dget (bucket d t) u with Some r => ret r | None => raise ObjectNotFound end
            | SRedis sid => redis_load a (redis_key sid t u) end) ->
          forall w2 r, X w1 = (w2, Ok r) -> read_only w1 w2 /\ r < length (w_heap w2)).
      { intros X -> w2 r Q. unfold bind at 1, get_adapter in Q. destruct (nth_error (w_ads w1) a) as [ad|] eqn:EA; [|discriminate].
        destruct (ad_store ad) as [d|sid] eqn:ES.
        - unfold bind in Q. rewrite put_store_eq in Q. destruct (dget (bucket d t) u) as [r0|] eqn:G; [|discriminate].
          injection Q as <- <-. split; [eapply read_only_touch; split; eauto|]. rewrite upd_store_heap.
          assert (F := w_ok_bucket w1 a ad d t K EA ES). rewrite Forall_forall in F. apply F.
          apply dget_Some_In in G. unfold dvals. apply in_map_iff. now exists (u, r0).
        - unfold redis_load in Q. destruct (dget (w_redis w1) (redis_key sid t u)) as [o|]; [|discriminate].
          unfold halloc in Q. injection Q as <- <-. split; [apply read_only_alloc|]. cbn. rewrite app_length. simpl. lia. }
      unfold bind at 1 in E.
      match type of E with (let '(_, _) := ?f w1 in _) = _ => destruct (f w1) as [w2 [r|e]] eqn:Q end; [|discriminate].
      destruct (ONE _ eq_refl w2 r) as [R2 L2].
      { rewrite <- Q. reflexivity. }
      unfold bind in E. destruct (st_get_by_uids a us (MName t) w2) as [w3 [rs'|e]] eqn:Q3; [|discriminate].
      injection E as <- <-. destruct (IH a t w2 w3 rs') as [R3 F3]; [eapply read_only_w_ok; eauto|exact Q3|].
      split; [eapply read_only_trans; eauto|]. constructor; [|exact F3].
      destruct R3 as ([n EH] & _). rewrite EH, app_length. lia.
  Qed.
  Lemma by_uids_eq a us t w1 : w_ok w1 -> exists w' r, st_get_by_uids a us (MName t) w1 = (w', r) /\ read_only w1 w' /\
    match r, objs_by w1 a us t with Ok rs, Ok os => deref w' rs = Ok os | Err e, Err e' => e = e' | _, _ => False end.
  Proof.
    intros K. destruct (by_uids_store us a t w1) as (w' & r & E & R & T & X). exists w', r. split; [exact E|]. split; [exact R|].
    unfold objs_by. rewrite <- X. destruct r as [rs|e]; [|reflexivity]. simpl.
    destruct (st_by_uids_valid us a t w1 w' rs K E) as [_ F]. destruct (deref_there _ _ F) as [os EO]. rewrite EO. reflexivity.
  Qed.
  Lemma dsim_all w0 a t : read_only w w0 -> dsim w0 (fun w1 => Forall2 (pts w1)) (rlift (st_get_all a (MName t))) (wlift (objs_all w a t)).
  Proof.
    intros R0. apply dsim_pure. intros s RO. pose proof (read_only_trans _ _ _ R0 RO) as R1.
    destruct (get_all_eq a t (dw_w s)) as (w' & r & E & R & X); [eapply read_only_w_ok; eauto|].
    exists w'. unfold rlift. rewrite E. cbn [fst snd]. split; [reflexivity|]. split; [exact R|].
    rewrite (read_only_objs_all w _ a t OK R1) in X. destruct r, (objs_all w a t); auto. now apply deref_pts.
  Qed.
  Lemma dsim_by w0 a us t : read_only w w0 -> dsim w0 (fun w1 => Forall2 (pts w1)) (rlift (st_get_by_uids a us (MName t))) (wlift (objs_by w a us t)).
  Proof.
    intros R0. apply dsim_pure. intros s RO. pose proof (read_only_trans _ _ _ R0 RO) as R1.
    destruct (by_uids_eq a us t (dw_w s)) as (w' & r & E & R & X); [eapply read_only_w_ok; eauto|].
    exists w'. unfold rlift. rewrite E. cbn [fst snd]. split; [reflexivity|]. split; [exact R|].
    rewrite (read_only_objs_by w _ a us t OK R1) in X. destruct r, (objs_by w a us t); auto. now apply deref_pts.
  Qed.
  Lemma dsim_children w0 a r o f t : read_only w w0 -> opts w0 r o ->
    dsim w0 (fun w1 => Forall2 (pts w1)) (wd_children a r f t) (wlift (kids_of (objs_by w a) o f t)).
  Proof.
    intros R0 P. unfold wd_children, kids_of. eapply dsim_before; [apply dsim_oget; exact P|]. intros w1 x R1 ->.
    destruct o as [o|].
    - unfold getattr_kids. destruct (dget (o_kids o) f) as [us|].
      + intros s RO. unfold bind, lift. apply (dsim_by w1); auto. eapply read_only_trans; eauto.
      + apply (dsim_raise w1).
    - apply dsim_ret. intros; constructor.
  Qed.
  Lemma dsim_index w0 rs os : Forall2 (pts w0) rs os -> forall acc acc', ptd w0 acc acc' ->
    dsim w0 ptd (wd_index rs acc) (wlift (index_by_uid os acc')).
  Proof.
    intros F. induction F as [|r o rs os P F IH]; intros acc acc' A; simpl.
    - apply (dsim_ret w0 ptd). intros; eapply ptd_mono; eauto.
    - eapply dsim_before; [eapply dsim_hget; eassumption|]. intros w1 x R1 ->.
      destruct (get_unique_id o) as [uid|e]; simpl.
      + intros s RO. unfold bind, lift. cbv beta iota. refine (IH (dset acc uid r) (dset acc' uid o) _ s _).
        * now apply ptd_set.
        * eapply read_only_trans; eauto.
      + apply (dsim_raise w1).
  Qed.
  Lemma dsim_validate w0 l l' : ptp w0 l l' -> dsim w0 sameval (wd_validate (dvals l)) (wlift (validate_pairs (dvals l'))).
  Proof.
    intros F. cut (forall w1, read_only w0 w1 -> dsim w1 sameval (wd_validate (dvals l)) (wlift (validate_pairs (dvals l')))); [intros K; apply K, read_only_refl|].
    induction F as [|[k [so do]] [k' [s d]] l l' (E & P & Q) F IH]; intros w1 R1; cbn [dvals map snd fst wd_validate validate_pairs] in *.
    - apply (dsim_ret w1 sameval). intros; reflexivity.
    - eapply dsim_before; [apply dsim_oget; eapply opts_mono; [exact R1|exact P]|]. intros w2 x R2 ->.
      eapply dsim_before; [apply dsim_oget; eapply opts_mono; [|exact Q]; eapply read_only_trans; eauto|]. intros w3 y R3 ->.
      destruct (validate_pair (s, d)) as [[]|e]; cbn [rbind].
      + intros st RO. unfold bind, lift. cbv beta iota. refine (IH w3 _ st RO). eapply read_only_trans; [exact R1|]. eapply read_only_trans; eauto.
      + apply (dsim_raise w3).
  Qed.

  Ltac ro := solve [assumption | eauto 8 using read_only_trans, read_only_refl].
  Ltac mono l := match goal with H : _ |- _ => eapply l; [|exact H]; ro end.
  Variables (sa da : adapter).
  Hypothesis HSA : nth_error (w_ads w) (wd_src env) = Some sa.
  Hypothesis HDA : nth_error (w_ads w) (wd_dst env) = Some da.
  Let rs := objs_by w (wd_src env).
  Let rd := objs_by w (wd_dst env).

  Lemma dsim_mapping w0 so do s d : read_only w w0 -> opts w0 so s -> opts w0 do d ->
    dsim w0 sameval (wd_mapping env D so do) (pchildren_mapping s d).
  Proof.
    intros R0 P Q. unfold wd_mapping. eapply dsim_before; [apply dsim_oget; exact P|]. intros w1 x R1 ->.
    eapply dsim_before; [apply dsim_oget; eapply opts_mono; [exact R1|exact Q]|]. intros w2 y R2 ->.
    assert (R02 : read_only w0 w2) by (ro).
    unfold pchildren_mapping. destruct s as [s|], d as [d|]; try (apply dsim_ret; intros; reflexivity); [|apply dsim_raise].
    cbv zeta.
    eapply dsim_bind; [|intros w3 [] [] R3 _; eapply dsim_bind; [|intros w4 [] [] R4 _; apply dsim_ret; intros; reflexivity]].
    - apply dsim_forM. intros w3 tf R3. destruct (dmem _ _); [apply dsim_ret; intros; reflexivity|].
      eapply dsim_before; [apply dsim_oget; eapply opts_mono; [|exact P]; ro|]. intros w4 x R4 ->.
      eapply dsim_bind; [apply dsim_lift|]. intros w5 n ? R5 <-. apply dsim_tick.
    - apply dsim_forM. intros w4 tf R4. destruct (dmem _ _); [apply dsim_ret; intros; reflexivity|].
      eapply dsim_before; [apply dsim_oget; eapply opts_mono; [|exact Q]; ro|]. intros w5 x R5 ->.
      eapply dsim_bind; [apply dsim_lift|]. intros w6 n ? R6 <-. apply dsim_tick.
  Qed.

  Section Rec.
    Variable rec : list ref -> list ref -> M dwstate (list elem).
    Variable prec : list obj -> list obj -> W (list elem).
    Hypothesis HR : forall w1 a b a' b', read_only w w1 -> Forall2 (pts w1) a a' -> Forall2 (pts w1) b b' -> dsim w1 sameval (rec a b) (prec a' b').

    Lemma dsim_child_types so do s d mapping : forall w0 gs, read_only w w0 -> opts w0 so s -> opts w0 do d ->
      dsim w0 sameval (wd_child_types env rec so do mapping gs) (pchild_types rs rd prec s d mapping gs).
    Proof.
      induction mapping as [|[t f] mapping IH]; intros w0 gs R0 P Q; simpl; [apply dsim_ret; intros; reflexivity|].
      eapply dsim_bind; [now apply dsim_children|]. intros w1 ss ss' R1 F1.
      eapply dsim_bind; [apply dsim_children; [ro|mono opts_mono]|]. intros w2 dd dd' R2 F2.
      assert (R02 : read_only w0 w2) by (ro).
      eapply dsim_bind; [apply HR; [ro|mono ptl_mono|exact F2]|]. intros w3 es ? R3 <-.
      eapply dsim_bind; [apply dsim_lift|]. intros w4 gs' ? R4 <-.
      assert (R04 : read_only w0 w4) by (ro).
      apply IH; [ro|mono opts_mono|mono opts_mono].
    Qed.
    Lemma opts_is w0 so s : opts w0 so s -> (if so then 1 else 0) = (if s then 1 else 0).
    Proof. destruct so, s; simpl; intros; try contradiction; reflexivity. Qed.
    Lemma dsim_pair w0 so do s d : read_only w w0 -> opts w0 so s -> opts w0 do d ->
      dsim w0 sameval (wd_pair env D rec so do) (ppair (wd_flags env) (ad_name sa) (ad_name da) rs rd prec s d).
    Proof.
      intros R0 P Q. unfold wd_pair. eapply dsim_before; [apply dsim_oget; exact P|]. intros w1 x R1 ->.
      eapply dsim_before; [apply dsim_oget; eapply opts_mono; [exact R1|exact Q]|]. intros w2 y R2 ->.
      assert (R02 : read_only w0 w2) by (ro).
      unfold ppair, either. destruct (match s with Some s => Some s | None => d end) as [o|]; [|apply dsim_raise].
      eapply dsim_bind; [apply dsim_lift|]. intros w3 ? ? R3 _. eapply dsim_bind; [apply dsim_lift|]. intros w4 name ? R4 <-.
      assert (R04 : read_only w0 w4) by (ro).
      destruct (skip_pair (wd_flags env) s d).
      - eapply dsim_bind; [apply dsim_tick|]. intros. apply dsim_ret. intros; reflexivity.
      - eapply dsim_before; [apply dsim_adapter; [ro|exact HSA]|]. intros w5 sa' R5 [NS _].
        eapply dsim_before; [apply dsim_adapter; [ro|exact HDA]|]. intros w6 da' R6 [ND _].
        rewrite (opts_is _ _ _ P), (opts_is _ _ _ Q).
        eapply dsim_bind; [apply dsim_tick|]. intros w7 ? ? R7 _.
        assert (R07 : read_only w0 w7) by (ro).
        eapply dsim_bind; [apply dsim_mapping; [ro|mono opts_mono|mono opts_mono]|].
        intros w8 mp ? R8 <-. assert (R08 : read_only w0 w8) by (ro).
        eapply dsim_bind; [apply dsim_child_types; [ro|mono opts_mono|mono opts_mono]|].
        intros w9 gs ? R9 <-. apply dsim_ret. intros. unfold sameval. now rewrite NS, ND.
    Qed.
    Lemma dsim_pairs l l' : forall w0, read_only w w0 -> ptp w0 l l' ->
      dsim w0 sameval (wd_pairs env D rec l) (ppairs (wd_flags env) (ad_name sa) (ad_name da) rs rd prec l').
    Proof.
      revert l'. induction l as [|[k [so do]] l IH]; intros l' w0 R0 F; inversion F as [|? [k' [s d]] ? l2 (E & P & Q) F']; subst; simpl.
      - apply dsim_ret; intros; reflexivity.
      - eapply dsim_bind; [apply dsim_pair; auto|]. intros w1 e ? R1 <-.
        eapply dsim_bind; [apply IH; [ro|mono ptp_mono]|]. intros w2 es ? R2 <-. apply dsim_ret; intros; reflexivity.
    Qed.
    Lemma dsim_body w0 a b a' b' : read_only w w0 -> Forall2 (pts w0) a a' -> Forall2 (pts w0) b b' ->
      dsim w0 sameval (wd_body env D rec a b) (plist_body (wd_flags env) (ad_name sa) (ad_name da) rs rd prec a' b').
    Proof.
      intros R0 F G. unfold wd_body, plist_body. eapply dsim_bind; [apply dsim_index; [exact F|constructor]|]. intros w1 ds ds' R1 H1.
      eapply dsim_bind; [apply dsim_index; [mono ptl_mono|constructor]|]. intros w2 dd dd' R2 H2. cbv zeta.
      assert (PP : ptp w2 (pair_refs ds dd) (pair_up ds' dd')) by (apply ptp_pair; [mono ptd_mono|exact H2]).
      rewrite (Forall2_len _ _ _ F), (Forall2_len _ _ _ G), (Forall2_len _ _ _ PP).
      eapply dsim_bind; [apply dsim_tick|]. intros w3 ? ? R3 _.
      eapply dsim_bind; [apply dsim_validate; mono ptp_mono|]. intros w4 ? ? R4 _.
      assert (R24 : read_only w2 w4) by (ro).
      apply dsim_pairs; [ro|mono ptp_mono].
    Qed.
  End Rec.

  Lemma dsim_list limit : forall w0 a b a' b', read_only w w0 -> Forall2 (pts w0) a a' -> Forall2 (pts w0) b b' ->
    dsim w0 sameval (wd_list limit env D a b) (plist (wd_flags env) (ad_name sa) (ad_name da) rs rd limit a' b').
  Proof. induction limit as [|limit IH]; intros w0 a b a' b' R0 F G; simpl; [apply dsim_raise|]. apply dsim_body; auto. Qed.
  Lemma dsim_types limit types : forall w0 gs, read_only w w0 ->
    dsim w0 sameval (wd_types limit env D types gs)
      (ptypes (wd_flags env) (ad_name sa) (ad_name da) rs rd (objs_all w (wd_src env)) (objs_all w (wd_dst env)) limit types gs).
  Proof.
    induction types as [|t types IH]; intros w0 gs R0; simpl; [apply dsim_ret; intros; reflexivity|].
    eapply dsim_bind; [now apply dsim_all|]. intros w1 ss ss' R1 F1.
    eapply dsim_bind; [apply dsim_all; ro|]. intros w2 dd dd' R2 F2.
    eapply dsim_bind; [apply dsim_list; [ro|mono ptl_mono|exact F2]|]. intros w3 es ? R3 <-.
    eapply dsim_bind; [apply dsim_lift|]. intros w4 gs' ? R4 <-. apply IH. ro.
  Qed.
  Lemma dsim_skipped w0 types : read_only w w0 ->
    dsim w0 sameval (wd_skipped env D types)
      (wforM types (fun t =>
         if smem t (ad_top da) then wbind (wlift (objs_all w (wd_dst env) t)) (fun l => wtick (length l))
         else if smem t (ad_top sa) then wbind (wlift (objs_all w (wd_src env) t)) (fun l => wtick (length l))
         else wret tt)).
  Proof.
    intros R0. apply dsim_forM. intros w1 t R1.
    eapply dsim_before; [apply dsim_adapter; [ro|exact HDA]|]. intros w2 da' R2 [_ TD]. rewrite TD.
    destruct (smem t (ad_top da)).
    - eapply dsim_bind; [apply dsim_all; ro|]. intros w3 l l' R3 F. rewrite (Forall2_len _ _ _ F). apply dsim_tick.
    - eapply dsim_before; [apply dsim_adapter; [ro|exact HSA]|]. intros w3 sa' R3 [_ TS]. rewrite TS.
      destruct (smem t (ad_top sa)); [|apply dsim_ret; intros; reflexivity].
      eapply dsim_bind; [apply dsim_all; ro|]. intros w4 l l' R4 F. rewrite (Forall2_len _ _ _ F). apply dsim_tick.
  Qed.
  Definition wd_main (limit : nat) : M dwstate (dict (dict elem)) :=
    da <- rlift (get_adapter (wd_dst env)) ;;
    sa <- rlift (get_adapter (wd_src env)) ;;
    wd_skipped env D (symmetric_difference (ad_top da) (ad_top sa)) ;;;
    da <- rlift (get_adapter (wd_dst env)) ;;
    sa <- rlift (get_adapter (wd_src env)) ;;
    wd_types limit env D (intersection (ad_top da) (ad_top sa)) [].
  Lemma dsim_main limit : dsim w sameval (wd_main limit) (pdiff limit (wd_flags env) w (wd_src env) (wd_dst env) sa da).
  Proof.
    unfold wd_main, pdiff, pcalc.
    eapply dsim_before; [apply dsim_adapter; [apply read_only_refl|exact HDA]|]. intros w1 da1 R1 [_ D1].
    eapply dsim_before; [apply dsim_adapter; [exact R1|exact HSA]|]. intros w2 sa1 R2 [_ S1]. rewrite D1, S1.
    eapply dsim_bind; [apply dsim_skipped; ro|]. intros w3 ? ? R3 _.
    assert (R03 : read_only w w3) by (ro).
    eapply dsim_before; [apply dsim_adapter; [exact R03|exact HDA]|]. intros w4 da2 R4 [_ D2].
    eapply dsim_before; [apply dsim_adapter; [ro|exact HSA]|]. intros w5 sa2 R5 [_ S2]. rewrite D2, S2.
    apply dsim_types. ro.
  Qed.
End Sim.

Lemma wd_calculate_main limit env D dc s : wd_calculate limit env D dc s =
  bind (wd_main env D limit) (fun gs => s <- get_state ;; call_duser (DComplete (mkDiff dc gs (dw_n s))) (du_complete D (mkDiff dc gs (dw_n s)))) s.
Proof.
  unfold wd_calculate, wd_main, bind. repeat match goal with |- context [let '(_, _) := ?x in _] => destruct x as [? [?|?]]; [|reflexivity] end.
  reflexivity.
Qed.
