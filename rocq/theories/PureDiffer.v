(** * PureDiffer: the diff calculation as a function of what the adapters hold. *)
From Verif Require Export StoreFacts DiffFacts DifferDefs DifferSpec.

(** ** Results with the increments of models_processed made on the way *)
Definition W (A : Type) := (list nat * result A)%type.
Definition wret {A} (a : A) : W A := ([], Ok a).
Definition wlift {A} (r : result A) : W A := ([], r).
Definition wtick (n : nat) : W unit := ([n], Ok tt).
Definition wbind {A B} (m : W A) (k : A -> W B) : W B :=
  match snd m with
  | Ok a => (fst m ++ fst (k a), snd (k a))
  | Err e => (fst m, Err e)
  end.
Fixpoint wforM {A} (l : list A) (f : A -> W unit) : W unit :=
  match l with [] => wret tt | x :: l' => wbind (f x) (fun _ => wforM l' f) end.

Section Pure.
  Variable flags : N.
  Variables sn dn : string.
  Variables rs rd : list string -> string -> result (list obj).

  Definition pchildren_mapping (so do : option obj) : W (dict string) :=
    match so, do with
    | Some s, Some d =>
        let sm := get_children_mapping s in
        let dm := get_children_mapping d in
        wbind (wforM sm (fun tf => if dmem dm (fst tf) then wret tt
                                   else wbind (wlift (kids_len s (snd tf))) wtick)) (fun _ =>
        wbind (wforM dm (fun tf => if dmem sm (fst tf) then wret tt
                                   else wbind (wlift (kids_len d (snd tf))) wtick)) (fun _ =>
        wret (filter (fun tf => dmem dm (fst tf)) sm)))
    | Some s, None => wret (get_children_mapping s)
    | None, Some d => wret (get_children_mapping d)
    | None, None => wlift (Err ExnTypeError)
    end.

  Section PRec.
    Variable prec : list obj -> list obj -> W (list elem).
    Fixpoint pchild_types (so do : option obj) (mapping : dict string) (gs : dict (dict elem)) : W (dict (dict elem)) :=
      match mapping with
      | [] => wret gs
      | (t, f) :: mapping' =>
          wbind (wlift (kids_of rs so f t)) (fun ss =>
          wbind (wlift (kids_of rd do f t)) (fun dd =>
          wbind (prec ss dd) (fun es =>
          wbind (wlift (add_elems gs es)) (fun gs' =>
          pchild_types so do mapping' gs'))))
      end.
    Definition ppair (so do : option obj) : W (option elem) :=
      match either so do with
      | None => wlift (Err ExnTypeError)
      | Some o =>
          wbind (wlift (get_unique_id o)) (fun _ =>
          wbind (wlift (get_shortname o)) (fun name =>
          if skip_pair flags so do then wbind (wtick 1) (fun _ => wret None)
          else
            wbind (wtick ((if so then 1 else 0) + (if do then 1 else 0))) (fun _ =>
            wbind (pchildren_mapping so do) (fun mapping =>
            wbind (pchild_types so do mapping []) (fun gs =>
            wret (Some (mkElem (get_type o) name (get_identifiers o) sn dn
                               (option_map get_attrs so) (option_map get_attrs do) gs)))))))
      end.
    Fixpoint ppairs (l : dict (option obj * option obj)) : W (list elem) :=
      match l with
      | [] => wret []
      | (_, (so, do)) :: l' =>
          wbind (ppair so do) (fun e => wbind (ppairs l') (fun es =>
          wret (match e with Some e' => e' :: es | None => es end)))
      end.
    Definition plist_body (src dst : list obj) : W (list elem) :=
      wbind (wlift (index_by_uid src [])) (fun ds =>
      wbind (wlift (index_by_uid dst [])) (fun dd =>
      wbind (wtick ((length src - length (pair_up ds dd)) + (length dst - length (pair_up ds dd)))) (fun _ =>
      wbind (wlift (validate_pairs (dvals (pair_up ds dd)))) (fun _ =>
      ppairs (pair_up ds dd))))).
  End PRec.

  Fixpoint plist (fuel : nat) (src dst : list obj) : W (list elem) :=
    match fuel with
    | O => wlift (Err ExnRecursionError)
    | S fuel' => plist_body (plist fuel') src dst
    end.
End Pure.

Section PureTop.
  Variable flags : N.
  Variables sn dn : string.
  Variables rs rd : list string -> string -> result (list obj).
  Variables as_ ad_ : string -> result (list obj).      (* all objects of a type *)

  Definition pskipped (dtop stop : list string) : W unit :=
    wforM (symmetric_difference dtop stop) (fun t =>
      if smem t dtop then wbind (wlift (ad_ t)) (fun l => wtick (length l))
      else if smem t stop then wbind (wlift (as_ t)) (fun l => wtick (length l))
      else wret tt).
  Fixpoint ptypes (fuel : nat) (types : list string) (gs : dict (dict elem)) : W (dict (dict elem)) :=
    match types with
    | [] => wret gs
    | t :: types' =>
        wbind (wlift (as_ t)) (fun ss => wbind (wlift (ad_ t)) (fun dd =>
        wbind (plist flags sn dn rs rd fuel ss dd) (fun es =>
        wbind (wlift (add_elems gs es)) (fun gs' => ptypes fuel types' gs'))))
    end.
  Definition pcalc (fuel : nat) (dtop stop : list string) : W (dict (dict elem)) :=
    wbind (pskipped dtop stop) (fun _ => ptypes fuel (intersection dtop stop) []).
End PureTop.

(** ** Read-only steps *)
Lemma store_ext_refl s : store_ext s s.
Proof. destruct s; simpl; [exists []; split; [now rewrite app_nil_r|auto]|reflexivity]. Qed.
Lemma store_ext_trans a b c : store_ext a b -> store_ext b c -> store_ext a c.
Proof.
  destruct a, b, c; simpl; try tauto; [|congruence]. intros [n1 [E1 N1]] [n2 [E2 N2]]. exists (n1 ++ n2).
  split; [|auto]. now rewrite E2, E1, map_app, app_assoc.
Qed.
Lemma Forall2_refl {A} (P : A -> A -> Prop) l : (forall x, P x x) -> Forall2 P l l.
Proof. intros H. induction l; constructor; auto. Qed.
Lemma Forall2_trans' {A} (P : A -> A -> Prop) l m n : (forall x y z, P x y -> P y z -> P x z) ->
  Forall2 P l m -> Forall2 P m n -> Forall2 P l n.
Proof.
  intros H F. revert n. induction F; intros n G; inversion G; subst; constructor; eauto.
Qed.
Lemma read_only_refl w : read_only w w.
Proof.
  split; [exists []; now rewrite app_nil_r|]. split; [reflexivity|]. apply Forall2_refl.
  intros ad. exists (ad_store ad). split; [now destruct ad|apply store_ext_refl].
Qed.
Lemma read_only_trans w1 w2 w3 : read_only w1 w2 -> read_only w2 w3 -> read_only w1 w3.
Proof.
  intros ([n1 H1] & R1 & A1) ([n2 H2] & R2 & A2). split; [|split; [congruence|]].
  - exists (n1 ++ n2). now rewrite H2, H1, app_assoc.
  - eapply Forall2_trans'; eauto. intros x y z (s1 & -> & E1) (s2 & -> & E2). exists s2. split; [now destruct x|].
    eapply store_ext_trans; eauto.
Qed.
Lemma touch_ext d m : exists names, touch d m = d ++ map (fun m => (m, [])) names /\ (NoDup (dkeys d) -> NoDup (dkeys (touch d m))).
Proof.
  unfold touch. destruct (dget d m) eqn:E; [exists []; split; [now rewrite app_nil_r|auto]|].
  exists [m]. simpl. rewrite dset_absent by exact E. split; [reflexivity|]. intros H.
  unfold dkeys. rewrite map_app. simpl. apply NoDup_snoc'; [exact H|]. now apply dget_None.
Qed.
Lemma Forall2_list_set {A} (P : A -> A -> Prop) l n x y : (forall z, P z z) -> nth_error l n = Some x -> P x y ->
  Forall2 P l (list_set l n y).
Proof.
  intros R. revert n. induction l as [|z l IH]; intros [|n] H HP; simpl in *; try discriminate.
  - injection H as <-. constructor; [exact HP|now apply Forall2_refl].
  - constructor; auto.
Qed.
Lemma read_only_touch w a ad d m : is_local w a ad d -> read_only w (upd_store w a (SLocal (touch d m))).
Proof.
  intros [H1 H2]. unfold read_only. rewrite upd_store_heap, upd_store_redis.
  split; [exists []; now rewrite app_nil_r|]. split; [reflexivity|].
  unfold upd_store. rewrite H1. simpl. eapply Forall2_list_set; [|exact H1|].
  - intros ad'. exists (ad_store ad'). split; [now destruct ad'|apply store_ext_refl].
  - exists (SLocal (touch d m)). split; [reflexivity|]. rewrite H2. simpl. apply touch_ext.
Qed.
Lemma read_only_alloc w o : read_only w (set_heap w (w_heap w ++ [o])).
Proof.
  split; [exists [o]; reflexivity|]. split; [reflexivity|]. simpl. apply Forall2_refl.
  intros ad'. exists (ad_store ad'). split; [now destruct ad'|apply store_ext_refl].
Qed.
Lemma read_only_event w e : read_only w (add_event w e).
Proof. pose proof (read_only_refl w) as (H1 & H2 & H3). split; [|split]; simpl; auto. Qed.

(** what a read-only step preserves *)
Lemma Forall2_nth {A B} (P : A -> B -> Prop) l m n : Forall2 P l m ->
  match nth_error l n with
  | Some x => exists y, nth_error m n = Some y /\ P x y
  | None => nth_error m n = None
  end.
Proof.
  intros F. revert n. induction F as [|x y l m HP F IH]; intros [|n]; simpl; eauto. exact (IH n).
Qed.
Lemma bucket_ext (d : dict (dict ref)) names t : bucket (d ++ map (fun m : string => (m, [])) names) t = bucket d t.
Proof.
  unfold bucket. rewrite (dget_app d). unfold dict in *. destruct (dget d t); [reflexivity|].
  induction names as [|n names IH]; simpl; [reflexivity|]. destruct (String.eqb t n); [reflexivity|exact IH].
Qed.
Lemma deref_app w w' rs news : w_heap w' = w_heap w ++ news -> Forall (fun r => r < length (w_heap w)) rs ->
  deref w' rs = deref w rs.
Proof.
  intros H F. unfold deref. induction F as [|r rs L F IH]; [reflexivity|]. simpl. rewrite IH, H, nth_error_app1 by exact L.
  reflexivity.
Qed.
Lemma w_ok_bucket w a ad d t : w_ok w -> nth_error (w_ads w) a = Some ad -> ad_store ad = SLocal d ->
  Forall (fun r => r < length (w_heap w)) (dvals (bucket d t)).
Proof.
  intros OK H1 H2. apply Forall_forall. intros r I. apply In_dvals in I as [u I].
  pose proof (In_bucket_In _ _ _ I) as J. eapply OK; eauto.
Qed.
Lemma rmapM_bucket_ok (d : dict (dict ref)) t us rs :
  rmapM (fun u => match dget (bucket d t) u with Some r => Ok r | None => Err ObjectNotFound end) us = Ok rs ->
  incl rs (dvals (bucket d t)).
Proof.
  revert rs. induction us as [|u us IH]; simpl; intros rs E.
  - injection E as <-. intros x [].
  - destruct (dget (bucket d t) u) as [r|] eqn:G; [|discriminate]. simpl in E.
    match type of E with context [rmapM ?f us] => destruct (rmapM f us) eqn:X end; [|discriminate].
    simpl in E. injection E as <-. intros x [<-|I]; [|eapply IH; eauto].
    apply dget_Some_In in G. eapply In_dvals_of; eauto.
Qed.
Lemma read_only_objs_all w w' a t : w_ok w -> read_only w w' -> objs_all w' a t = objs_all w a t.
Proof.
  intros OK ([news HN] & HR & HA). unfold objs_all. pose proof (Forall2_nth _ _ _ a HA) as X.
  destruct (nth_error (w_ads w) a) as [ad|] eqn:E.
  - destruct X as (ad' & E' & s' & -> & SE). rewrite E'. simpl. destruct (ad_store ad) as [d|sid] eqn:ES.
    + destruct s' as [d'|]; [|destruct SE]. destruct SE as [names [-> _]]. rewrite bucket_ext.
      eapply deref_app; eauto. eapply w_ok_bucket; eauto.
    + destruct s' as [|sid']; [destruct SE|]. simpl in SE. subst sid'. now rewrite HR.
  - now rewrite X.
Qed.
Lemma read_only_objs_by w w' a us t : w_ok w -> read_only w w' -> objs_by w' a us t = objs_by w a us t.
Proof.
  intros OK ([news HN] & HR & HA). unfold objs_by. destruct us as [|u0 us0]; [reflexivity|]. set (us := u0 :: us0).
  pose proof (Forall2_nth _ _ _ a HA) as X.
  destruct (nth_error (w_ads w) a) as [ad|] eqn:E.
  - destruct X as (ad' & E' & s' & -> & SE). rewrite E'. simpl ad_store. destruct (ad_store ad) as [d|sid] eqn:ES.
    + destruct s' as [d'|]; [|destruct SE]. destruct SE as [names [-> _]]. rewrite bucket_ext.
      match goal with |- context [rmapM ?f us] => destruct (rmapM f us) as [rs|] eqn:Y end; [|reflexivity]. simpl rbind.
      eapply deref_app; eauto. pose proof (w_ok_bucket _ _ _ _ t OK E ES) as B.
      apply Forall_forall. intros r I. rewrite Forall_forall in B. apply B. now apply (rmapM_bucket_ok _ _ _ _ Y).
    + destruct s' as [|sid']; [destruct SE|]. simpl in SE. subst sid'. now rewrite HR.
  - now rewrite X.
Qed.
Lemma read_only_w_ok w w' : w_ok w -> read_only w w' -> w_ok w'.
Proof.
  intros OK ([news HN] & HR & HA) a ad' d' m b u r E' ES I1 I2.
  pose proof (Forall2_nth _ _ _ a HA) as X. destruct (nth_error (w_ads w) a) as [ad|] eqn:E; [|congruence].
  destruct X as (ad2 & E2 & s' & -> & SE). rewrite E2 in E'. injection E' as <-. simpl in ES. subst s'.
  destruct (ad_store ad) as [d|] eqn:ES; [|destruct SE]. destruct SE as [names [-> _]].
  rewrite HN, app_length. apply in_app_iff in I1 as [I1|I1].
  - specialize (OK a ad d m b u r E ES I1 I2). lia.
  - apply in_map_iff in I1 as [x [X _]]. injection X as _ <-. destruct I2.
Qed.

(** ** Simulation of the monadic calculation by the pure one *)

(** the callback events for a list of increments, starting from [n] *)
Fixpoint callbacks (total n : nat) (ks : list nat) : list event :=
  match ks with
  | [] => []
  | O :: ks' => callbacks total n ks'
  | k :: ks' => EvCallback "diff" (n + k) total :: callbacks total (n + k) ks'
  end.

Lemma callbacks_app total n ks ks' : callbacks total n (ks ++ ks') = callbacks total n ks ++ callbacks total (n + list_sum ks) ks'.
Proof.
  revert n. induction ks as [|k ks IH]; intros n; [cbn; now rewrite Nat.add_0_r|].
  change (list_sum (k :: ks)) with (k + list_sum ks). rewrite Nat.add_assoc.
  destruct k; simpl app; cbn [callbacks]; rewrite IH; [now rewrite Nat.add_0_r|reflexivity].
Qed.

Definition played (env : denv) (s s' : dstate) (ks : list nat) : Prop :=
  ds_n s' = ds_n s + list_sum ks /\
  w_trace (ds_w s') = w_trace (ds_w s) ++ (if en_cb env then callbacks (en_total env) (ds_n s) ks else []) /\
  read_only (ds_w s) (ds_w s').

Lemma played_refl env s : played env s s [].
Proof.
  split; [simpl; lia|]. split; [simpl; destruct (en_cb env); now rewrite app_nil_r|apply read_only_refl].
Qed.
Lemma played_trans env s1 s2 s3 k1 k2 : played env s1 s2 k1 -> played env s2 s3 k2 -> played env s1 s3 (k1 ++ k2).
Proof.
  intros (N1 & T1 & R1) (N2 & T2 & R2). split; [|split; [|eapply read_only_trans; eauto]].
  - rewrite N2, N1, list_sum_app. lia.
  - rewrite T2, T1. destruct (en_cb env); [|now rewrite !app_nil_r].
    rewrite callbacks_app, N1, app_assoc. reflexivity.
Qed.

(** [m], run from any state that a read-only step can reach from [w], behaves as [p] *)
Definition sim (env : denv) (w : world) {A} (m : M dstate A) (p : W A) : Prop :=
  forall s, read_only w (ds_w s) -> snd (m s) = snd p /\ played env s (fst (m s)) (fst p).

Lemma sim_ret env w {A} (a : A) : sim env w (ret a) (wret a).
Proof. intros s _. split; [reflexivity|apply played_refl]. Qed.
Lemma sim_lift env w {A} (r : result A) : sim env w (lift r) (wlift r).
Proof. intros s _. split; [reflexivity|apply played_refl]. Qed.
Lemma sim_raise env w {A} e : sim env w (raise e : M dstate A) (wlift (Err e)).
Proof. intros s _. split; [reflexivity|apply played_refl]. Qed.
Lemma sim_bind env w {A B} (m : M dstate A) p (k : A -> M dstate B) q :
  sim env w m p -> (forall a, snd p = Ok a -> sim env w (k a) (q a)) -> sim env w (bind m k) (wbind p q).
Proof.
  intros H K s R. destruct (H s R) as [E P]. unfold bind, wbind. destruct (m s) as [s1 r] eqn:X. simpl in E, P. subst r.
  destruct (snd p) as [a|e] eqn:SP.
  - destruct (K a eq_refl s1) as [E2 P2]; [eapply read_only_trans; [exact R|apply P]|].
    split; [exact E2|]. simpl. eapply played_trans; eauto.
  - split; [reflexivity|exact P].
Qed.
Lemma sim_tick env w n : sim env w (incr_models_processed env n) (wtick n).
Proof.
  intros s _. unfold incr_models_processed, wtick. destruct n as [|n]; simpl.
  - split; [reflexivity|]. destruct (played_refl env s) as (N & T & R). split; [simpl in *; lia|]. split; [|exact R].
    destruct (en_cb env); exact T.
  - split; [reflexivity|]. split; [simpl; lia|]. destruct (en_cb env); simpl.
    + split; [reflexivity|apply read_only_event].
    + split; [now rewrite app_nil_r|apply read_only_refl].
Qed.
Lemma sim_forM env w {A} (l : list A) f g : (forall x, sim env w (f x) (g x)) -> sim env w (forM l f) (wforM l g).
Proof. intros H. induction l as [|x l IH]; simpl; [apply sim_ret|]. apply sim_bind; auto. Qed.

(** *** the reads *)
Lemma mapM_hget w rs : mapM hget rs w = (w, deref w rs).
Proof.
  unfold deref. induction rs as [|r rs IH]; [reflexivity|]. simpl. unfold bind at 1, hget at 1.
  destruct (nth_error (w_heap w) r); [|reflexivity]. unfold bind. rewrite IH. simpl.
  match goal with |- context [rmapM ?f rs] => destruct (rmapM f rs) end; reflexivity.
Qed.
Lemma dlift_eq {A} (m : M world A) s w' r : m (ds_w s) = (w', r) -> dlift m s = (mkDS w' (ds_n s), r).
Proof. intros E. unfold dlift. now rewrite E. Qed.

(** loading snapshots creates new objects *)
Lemma redis_loads a keys w :
  exists news rs r, mapM (redis_load a) keys w = (set_heap w (w_heap w ++ news), r) /\
    match rmapM (fun k => match dget (w_redis w) k with
                          | Some o => Ok (set_o_adapter o (Some a))
                          | None => Err ObjectNotFound end) keys with
    | Ok os => r = Ok rs /\ news = os /\ rs = seq (length (w_heap w)) (length os)
    | Err e => r = Err e
    end.
Proof.
  revert w. induction keys as [|k keys IH]; intros w.
  - exists [], [], (Ok []). simpl. rewrite app_nil_r, set_heap_same. repeat split.
  - simpl. unfold bind at 1, redis_load at 1. destruct (dget (w_redis w) k) as [o|] eqn:G.
    + set (o' := set_o_adapter o (Some a)). unfold halloc.
      destruct (IH (set_heap w (w_heap w ++ [o']))) as (news & rs & r & E & X).
      simpl in X. unfold bind. rewrite E. simpl. unfold set_heap at 1 2. simpl.
      match type of X with context [rmapM ?f keys] => destruct (rmapM f keys) as [os|e] end.
      * destruct X as (-> & -> & ->). exists (o' :: os), (length (w_heap w) :: seq (length (w_heap w ++ [o'])) (length os)), (Ok (length (w_heap w) :: seq (length (w_heap w ++ [o'])) (length os))).
        split; [unfold set_heap; simpl; now rewrite <- app_assoc|]. simpl. split; [reflexivity|]. split; [reflexivity|].
        rewrite app_length. simpl. now rewrite Nat.add_1_r.
      * subst r. exists (o' :: news), [], (Err e). split; [unfold set_heap; simpl; now rewrite <- app_assoc|reflexivity].
    + exists [], [], (Err ObjectNotFound). rewrite app_nil_r, set_heap_same. split; reflexivity.
Qed.
Lemma deref_seq w h news : w_heap w = h ++ news -> deref w (seq (length h) (length news)) = Ok news.
Proof.
  revert h. unfold deref. induction news as [|o news IH]; intros h E; [reflexivity|]. simpl.
  assert (nth_error (w_heap w) (length h) = Some o) as ->.
  { rewrite E, nth_error_app2, Nat.sub_diag by lia. reflexivity. }
  simpl. specialize (IH (h ++ [o])). rewrite <- app_assoc in IH. specialize (IH E).
  rewrite app_length in IH. simpl in IH. rewrite Nat.add_1_r in IH. rewrite IH. reflexivity.
Qed.
Lemma read_only_news w news : read_only w (set_heap w (w_heap w ++ news)).
Proof.
  split; [now exists news|]. split; [reflexivity|]. simpl. apply Forall2_refl.
  intros ad'. exists (ad_store ad'). split; [now destruct ad'|apply store_ext_refl].
Qed.

Lemma fetch_all_eq a t s :
  exists w', fetch_all a t s = (mkDS w' (ds_n s), objs_all (ds_w s) a t) /\
    read_only (ds_w s) w' /\ w_trace w' = w_trace (ds_w s).
Proof.
  unfold fetch_all, objs_all. destruct s as [w n]. simpl ds_w. simpl ds_n.
  destruct (nth_error (w_ads w) a) as [ad|] eqn:E.
  2:{ exists w. split; [|split; [apply read_only_refl|reflexivity]].
      unfold bind at 1. rewrite (dlift_eq _ (mkDS w n) w (Err DanglingRef)); [reflexivity|].
      simpl. unfold st_get_all, bind, get_adapter. now rewrite E. }
  destruct (ad_store ad) as [d|sid] eqn:ES.
  - exists (upd_store w a (SLocal (touch d t))). split; [|split; [eapply read_only_touch; split; eauto|apply upd_store_trace]].
    unfold bind at 1. rewrite (dlift_eq _ (mkDS w n) _ _ (st_get_all_local a (MName t) w ad d (conj E ES))).
    simpl. unfold dlift. simpl. rewrite mapM_hget. simpl. f_equal. unfold deref. now rewrite upd_store_heap.
  - assert (G : st_get_all a (MName t) w =
      mapM (redis_load a) (filter (glob (store_label sid ++ ":" ++ t ++ ":*")%string) (dkeys (w_redis w))) w).
    { unfold st_get_all, bind at 1, get_adapter. rewrite E, ES. reflexivity. }
    revert G. generalize (filter (glob (store_label sid ++ ":" ++ t ++ ":*")%string) (dkeys (w_redis w))) as keys.
    intros keys G. destruct (redis_loads a keys w) as (news & rs & r & X & Y).
    exists (set_heap w (w_heap w ++ news)). split; [|split; [apply read_only_news|reflexivity]].
    unfold bind at 1. rewrite (dlift_eq _ (mkDS w n) (set_heap w (w_heap w ++ news)) r) by (cbn [ds_w]; now rewrite G).
    cbn [ds_n]. match type of Y with context [rmapM ?f ?l] => destruct (rmapM f l) as [os|e] end.
    + destruct Y as (-> & -> & ->). unfold dlift. cbn [ds_w ds_n]. rewrite mapM_hget. cbn [fst snd].
      rewrite (deref_seq _ (w_heap w)) by reflexivity. reflexivity.
    + subst r. reflexivity.
Qed.
Lemma by_uids_store us : forall a t w,
  exists w' r, st_get_by_uids a us (MName t) w = (w', r) /\ read_only w w' /\ w_trace w' = w_trace w /\
    rbind r (deref w') =
    match us with
    | [] => Ok []
    | _ => match nth_error (w_ads w) a with
           | None => Err DanglingRef
           | Some ad =>
               match ad_store ad with
               | SLocal d => rbind (rmapM (fun u => match dget (bucket d t) u with Some r => Ok r | None => Err ObjectNotFound end) us) (deref w)
               | SRedis sid => rmapM (fun u => match dget (w_redis w) (redis_key sid t u) with
                          | Some o => Ok (set_o_adapter o (Some a)) | None => Err ObjectNotFound end) us
               end
           end
    end.
Proof.
  intros a t w. destruct us as [|u0 us0].
  { exists w, (Ok []). split; [reflexivity|]. split; [apply read_only_refl|]. split; reflexivity. }
  set (us := u0 :: us0). destruct (nth_error (w_ads w) a) as [ad|] eqn:E.
  2:{ exists w, (Err DanglingRef). split; [|split; [apply read_only_refl|split; reflexivity]].
      simpl. unfold st_get_by_uids. simpl. unfold bind at 1 2, get_adapter. now rewrite E. }
  destruct (ad_store ad) as [d|sid] eqn:ES.
  - cut (forall us d w ad, nth_error (w_ads w) a = Some ad -> ad_store ad = SLocal d ->
      exists w', st_get_by_uids a us (MName t) w =
        (w', rmapM (fun u => match dget (bucket d t) u with Some r => Ok r | None => Err ObjectNotFound end) us) /\
        read_only w w' /\ w_heap w' = w_heap w /\ w_trace w' = w_trace w).
    { intros H. destruct (H us d w ad E ES) as (w' & X & R & HH & TT). exists w'. eexists. split; [exact X|].
      split; [exact R|]. split; [exact TT|]. unfold deref. now rewrite HH. }
    clear. induction us as [|u us IH]; intros d w ad E ES.
    + exists w. split; [reflexivity|]. split; [apply read_only_refl|]. split; reflexivity.
    + unfold st_get_by_uids. simpl.
      match goal with |- context [mapM ?f us] => change (mapM f us) with (st_get_by_uids a us (MName t)) end.
      unfold bind at 1 2, get_adapter. rewrite E, ES. unfold bind at 1. rewrite put_store_eq.
      set (w1 := upd_store w a (SLocal (touch d t))).
      pose proof (is_local_upd w a ad d (touch d t) (conj E ES)) as [L1 L2]. fold w1 in L1.
      assert (R1 : read_only w w1) by (eapply read_only_touch; split; eauto).
      destruct (dget (bucket d t) u) as [r|] eqn:G.
      * destruct (IH (touch d t) w1 _ L1 L2) as (w' & X & R & HH & TT). exists w'.
        unfold ret at 1, bind. rewrite touch_bucket in X. rewrite X. split.
        -- simpl rbind. match goal with |- context [rmapM ?f us] => destruct (rmapM f us) end; reflexivity.
        -- split; [eapply read_only_trans; eauto|]. rewrite HH, TT. unfold w1. now rewrite upd_store_heap, upd_store_trace.
      * exists w1. split; [reflexivity|]. split; [exact R1|]. unfold w1. now rewrite upd_store_heap, upd_store_trace.
  - assert (RL : forall us w, nth_error (w_ads w) a = Some ad ->
      st_get_by_uids a us (MName t) w = mapM (redis_load a) (map (redis_key sid t) us) w).
    { clear - ES. induction us as [|u us IH]; intros w E; [reflexivity|]. unfold st_get_by_uids. simpl.
      match goal with |- context [mapM ?f us] => change (mapM f us) with (st_get_by_uids a us (MName t)) end.
      unfold bind at 1 2, get_adapter. rewrite E, ES. unfold bind at 2.
      destruct (redis_load a (redis_key sid t u) w) as [w1 [r|e]] eqn:X; [|reflexivity].
      assert (E1 : nth_error (w_ads w1) a = Some ad).
      { unfold redis_load in X. destruct (dget (w_redis w) (redis_key sid t u)); [|discriminate].
        unfold halloc in X. injection X as <- _. exact E. }
      unfold bind. rewrite (IH w1 E1). reflexivity. }
    destruct (redis_loads a (map (redis_key sid t) us) w) as (news & rs & r & X & Y).
    exists (set_heap w (w_heap w ++ news)), r. rewrite (RL us w E). split; [exact X|].
    split; [apply read_only_news|]. split; [reflexivity|].
    change (match us with [] => Ok [] | _ => rmapM (fun u => match dget (w_redis w) (redis_key sid t u) with
                          | Some o => Ok (set_o_adapter o (Some a)) | None => Err ObjectNotFound end) us end)
      with (rmapM (fun u => match dget (w_redis w) (redis_key sid t u) with
                          | Some o => Ok (set_o_adapter o (Some a)) | None => Err ObjectNotFound end) us).
    assert (RM : forall l, rmapM (fun k => match dget (w_redis w) k with
       | Some o => Ok (set_o_adapter o (Some a)) | None => Err ObjectNotFound end) (map (redis_key sid t) l) =
       rmapM (fun u => match dget (w_redis w) (redis_key sid t u) with
                          | Some o => Ok (set_o_adapter o (Some a)) | None => Err ObjectNotFound end) l).
    { induction l as [|x l IH]; simpl; [reflexivity|]. now rewrite IH. }
    rewrite <- RM. match type of Y with context [rmapM ?f ?l] => destruct (rmapM f l) as [os|e] end.
    + destruct Y as (-> & -> & ->). simpl. apply (deref_seq _ (w_heap w)). reflexivity.
    + subst r. reflexivity.
Qed.
Lemma fetch_by_uids_eq a us t s :
  exists w', fetch_by_uids a us t s = (mkDS w' (ds_n s), objs_by (ds_w s) a us t) /\
    read_only (ds_w s) w' /\ w_trace w' = w_trace (ds_w s).
Proof.
  destruct s as [w n]. simpl. destruct (by_uids_store us a t w) as (w' & r & E & R & T & D).
  exists w'. split; [|auto]. unfold fetch_by_uids, bind at 1.
  rewrite (dlift_eq _ (mkDS w n) w' r E). simpl ds_n. unfold objs_by.
  destruct r as [rs|e].
  - unfold dlift. simpl ds_w. rewrite mapM_hget. simpl in D |- *. now rewrite D.
  - simpl in D. now rewrite <- D.
Qed.

Lemma sim_fetch_all env w a t : w_ok w -> sim env w (fetch_all a t) (wlift (objs_all w a t)).
Proof.
  intros OK s R. destruct (fetch_all_eq a t s) as (w' & E & R' & T). rewrite E. simpl. split.
  - now apply read_only_objs_all.
  - split; [simpl; lia|]. split; [|exact R']. simpl. rewrite T. destruct (en_cb env); simpl; now rewrite app_nil_r.
Qed.
Lemma sim_fetch_by env w a us t : w_ok w -> sim env w (fetch_by_uids a us t) (wlift (objs_by w a us t)).
Proof.
  intros OK s R. destruct (fetch_by_uids_eq a us t s) as (w' & E & R' & T). rewrite E. simpl. split.
  - now apply read_only_objs_by.
  - split; [simpl; lia|]. split; [|exact R']. simpl. rewrite T. destruct (en_cb env); simpl; now rewrite app_nil_r.
Qed.

Lemma sim_bind_fst env w {A B} (m : M dstate A) p (k : A -> M dstate B) (r : result B) :
  sim env w m (wlift p) -> (forall a, p = Ok a -> sim env w (k a) (wlift r)) -> (forall e, p = Err e -> r = Err e) ->
  sim env w (bind m k) (wlift r).
Proof.
  intros H K E s R. destruct (H s R) as [E1 P1]. unfold bind. destruct (m s) as [s1 r1]. simpl in E1, P1. subst r1.
  destruct p as [a|e].
  - destruct (K a eq_refl s1) as [E2 P2]; [eapply read_only_trans; [exact R|apply P1]|]. split; [exact E2|].
    simpl. exact (played_trans env _ _ _ [] [] P1 P2).
  - simpl. rewrite (E e eq_refl). split; [reflexivity|exact P1].
Qed.

Section Sim.
  Variable env : denv.
  Variable w : world.
  Hypothesis OK : w_ok w.
  Let rs := objs_by w (en_src env).
  Let rd := objs_by w (en_dst env).

  Lemma sim_fetch_children a o f t : sim env w (fetch_children a o f t) (wlift (kids_of (objs_by w a) o f t)).
  Proof.
    unfold fetch_children, kids_of. destruct o as [o|]; [|apply sim_ret].
    unfold getattr_kids. destruct (dget (o_kids o) f) as [us|].
    - intros s R. unfold bind, lift. exact (sim_fetch_by env w a us t OK s R).
    - intros s R. split; [reflexivity|apply played_refl].
  Qed.
  Lemma sim_children_mapping so do : sim env w (children_mapping env so do) (pchildren_mapping so do).
  Proof.
    unfold children_mapping, pchildren_mapping. destruct so as [s|], do as [d|]; try apply sim_ret; [|apply sim_raise].
    cbv zeta. apply sim_bind; [|intros _ _; apply sim_bind; [|intros _ _; apply sim_ret]].
    - apply sim_forM. intros tf. destruct (dmem _ _); [apply sim_ret|]. apply sim_bind; [apply sim_lift|]. intros n _. apply sim_tick.
    - apply sim_forM. intros tf. destruct (dmem _ _); [apply sim_ret|]. apply sim_bind; [apply sim_lift|]. intros n _. apply sim_tick.
  Qed.

  Variable rec : list obj -> list obj -> M dstate (list elem).
  Variable prec : list obj -> list obj -> W (list elem).
  Hypothesis HR : forall ss dd, sim env w (rec ss dd) (prec ss dd).

  Lemma sim_child_types so do mapping : forall gs,
    sim env w (diff_child_types env rec so do mapping gs) (pchild_types rs rd prec so do mapping gs).
  Proof.
    induction mapping as [|[t f] mapping IH]; intros gs; simpl; [apply sim_ret|].
    apply sim_bind; [apply sim_fetch_children|]. intros ss _. apply sim_bind; [apply sim_fetch_children|]. intros dd _.
    apply sim_bind; [apply HR|]. intros es _. apply sim_bind; [apply sim_lift|]. intros gs' _. apply IH.
  Qed.
  Lemma sim_pair so do : sim env w (diff_object_pair env rec so do) (ppair (en_flags env) (en_sname env) (en_dname env) rs rd prec so do).
  Proof.
    unfold diff_object_pair, ppair, either. destruct (match so with Some s => Some s | None => do end) as [o|]; [|apply sim_raise].
    apply sim_bind; [apply sim_lift|]. intros _ _. apply sim_bind; [apply sim_lift|]. intros name _.
    destruct (skip_pair (en_flags env) so do).
    - apply sim_bind; [apply sim_tick|]. intros _ _. apply sim_ret.
    - apply sim_bind; [apply sim_tick|]. intros _ _. apply sim_bind; [apply sim_children_mapping|]. intros mp _.
      apply sim_bind; [apply sim_child_types|]. intros gs _. apply sim_ret.
  Qed.
  Lemma sim_pairs l : sim env w (diff_pairs env rec l) (ppairs (en_flags env) (en_sname env) (en_dname env) rs rd prec l).
  Proof.
    induction l as [|[u [so do]] l IH]; simpl; [apply sim_ret|].
    apply sim_bind; [apply sim_pair|]. intros e _. apply sim_bind; [exact IH|]. intros es _. apply sim_ret.
  Qed.
  Lemma sim_body ss dd : sim env w (diff_list_body env rec ss dd) (plist_body (en_flags env) (en_sname env) (en_dname env) rs rd prec ss dd).
  Proof.
    unfold diff_list_body, plist_body. apply sim_bind; [apply sim_lift|]. intros ds _.
    apply sim_bind; [apply sim_lift|]. intros de _. cbv zeta. apply sim_bind; [apply sim_tick|]. intros _ _.
    apply sim_bind; [apply sim_lift|]. intros _ _. apply sim_pairs.
  Qed.
End Sim.

Lemma sim_list env w fuel : w_ok w -> forall ss dd,
  sim env w (diff_object_list fuel env ss dd)
    (plist (en_flags env) (en_sname env) (en_dname env) (objs_by w (en_src env)) (objs_by w (en_dst env)) fuel ss dd).
Proof.
  intros OK. induction fuel as [|fuel IH]; intros ss dd; simpl; [apply sim_raise|]. now apply sim_body.
Qed.
Lemma sim_types env w fuel types : w_ok w -> forall gs,
  sim env w (diff_types fuel env types gs)
    (ptypes (en_flags env) (en_sname env) (en_dname env) (objs_by w (en_src env)) (objs_by w (en_dst env))
            (objs_all w (en_src env)) (objs_all w (en_dst env)) fuel types gs).
Proof.
  intros OK. induction types as [|t types IH]; intros gs; simpl; [apply sim_ret|].
  apply sim_bind; [now apply sim_fetch_all|]. intros ss _. apply sim_bind; [now apply sim_fetch_all|]. intros dd _.
  apply sim_bind; [now apply sim_list|]. intros es _. apply sim_bind; [apply sim_lift|]. intros gs' _. apply IH.
Qed.
Lemma sim_skipped env w dtop stop : w_ok w ->
  sim env w (count_skipped env dtop stop) (pskipped (objs_all w (en_src env)) (objs_all w (en_dst env)) dtop stop).
Proof.
  intros OK. apply sim_forM. intros t. destruct (smem t dtop); [|destruct (smem t stop); [|apply sim_ret]].
  - apply sim_bind; [now apply sim_fetch_all|]. intros l _. apply sim_tick.
  - apply sim_bind; [now apply sim_fetch_all|]. intros l _. apply sim_tick.
Qed.

(** the whole calculation *)
Definition pdiff (fuel : nat) (flags : N) (w : world) (src dst : aid) (sa da : adapter) : W (dict (dict elem)) :=
  pcalc flags (ad_name sa) (ad_name da) (objs_by w src) (objs_by w dst) (objs_all w src) (objs_all w dst) fuel
        (ad_top da) (ad_top sa).

Lemma diff_from_pure fuel dst src dc flags cb w sa da : w_ok w ->
  nth_error (w_ads w) src = Some sa -> nth_error (w_ads w) dst = Some da ->
  let p := pdiff fuel flags w src dst sa da in
  exists w', diff_from fuel dst src dc flags cb w =
      (w', match snd p with Ok gs => Ok (mkDiff dc gs (list_sum (fst p))) | Err e => Err e end) /\
    read_only w w' /\
    w_trace w' = w_trace w ++ (if cb then callbacks (count_all w src + count_all w dst) 0 (fst p) else []).
Proof.
  intros OK HS HD p. unfold diff_from, bind at 1, get_adapter at 1. rewrite HS. unfold bind at 1, get_adapter at 1. rewrite HD.
  unfold bind at 1, get_state at 1.
  set (env := mkEnv src dst flags (count_all w src + count_all w dst) cb (ad_name sa) (ad_name da)). cbv zeta.
  set (q := wbind p (fun gs => wret gs)).
  assert (H : sim env w (count_skipped env (ad_top da) (ad_top sa) ;;; diff_types fuel env (intersection (ad_top da) (ad_top sa)) []) p).
  { unfold p, pdiff, pcalc. apply sim_bind; [now apply sim_skipped|]. intros _ _. now apply (sim_types env w). }
  destruct (H (mkDS w 0) (read_only_refl w)) as [E (N & T & R)].
  assert (X : calculate_diffs fuel env dc (ad_top da) (ad_top sa) (mkDS w 0) =
    (fst ((count_skipped env (ad_top da) (ad_top sa) ;;; diff_types fuel env (intersection (ad_top da) (ad_top sa)) []) (mkDS w 0)),
     match snd p with Ok gs => Ok (mkDiff dc gs (list_sum (fst p))) | Err e => Err e end)).
  { rewrite <- E. unfold calculate_diffs, bind in N |- *.
    destruct (count_skipped env (ad_top da) (ad_top sa) (mkDS w 0)) as [s1 [[]|e]]; [|reflexivity].
    destruct (diff_types fuel env (intersection (ad_top da) (ad_top sa)) [] s1) as [s2 [gs|e]]; [|reflexivity].
    simpl in N |- *. now rewrite N. }
  rewrite X. eexists. split; [reflexivity|]. split; [exact R|]. exact T.
Qed.
