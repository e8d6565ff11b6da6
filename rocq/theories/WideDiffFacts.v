(** * WideDiffFacts: what holds of a calculation whatever user code does. *)
From Verif Require Export WholeFacts.
From Verif Require Export FaithFacts WideDiffSim.

(** *** numbers of elements *)
Definition tally (es : list elem) : nat := list_sum (map (fun e => length (elem_all e)) es).
Lemma tally_app a b : tally (a ++ b) = tally a + tally b.
Proof. unfold tally. now rewrite map_app, list_sum_app. Qed.
Lemma tally_cons e es : tally (e :: es) = length (elem_all e) + tally es.
Proof. reflexivity. Qed.
Lemma tally_add gs e gs' : groups_add gs e = Ok gs' -> tally (children gs') = tally (children gs) + length (elem_all e).
Proof.
  unfold groups_add. destruct (dmem _ _) eqn:DM; [discriminate|]. intros E. injection E as <-.
  assert (S2 : forall g : dict elem, dmem g (e_name e) = false -> tally (dvals (dset g (e_name e) e)) = tally (dvals g) + length (elem_all e)).
  { intros g ND. apply dmem_false in ND. rewrite dset_absent by exact ND. unfold dvals. rewrite map_app, tally_app. cbn [map snd]. rewrite tally_cons. unfold tally at 2. cbn. lia. }
  assert (CC : forall t (g : dict elem) gs, tally (children ((t, g) :: gs)) = tally (dvals g) + tally (children gs)).
  { intros. unfold children. cbn [flat_map snd]. apply tally_app. }
  unfold group_of in *. induction gs as [|[t g] gs IH]; cbn [dget dset] in *.
  - rewrite CC. unfold tally. cbn. lia.
  - destruct (String.eqb (e_type e) t); rewrite !CC; [rewrite S2 by exact DM|rewrite IH by exact DM]; lia.
Qed.
Lemma tally_adds es : forall gs gs', add_elems gs es = Ok gs' -> tally (children gs') = tally (children gs) + tally es.
Proof.
  induction es as [|e es IH]; intros gs gs' E; cbn [add_elems] in E.
  - injection E as <-. unfold tally at 3. cbn. lia.
  - destruct (groups_add gs e) as [g1|] eqn:A; [|discriminate]. cbn [rbind] in E. rewrite (IH _ _ E), (tally_add _ _ _ A), tally_cons. lia.
Qed.
Lemma length_elem_all e : length (elem_all e) = S (tally (children (e_kids e))).
Proof. rewrite elem_all_eq. cbn [length]. f_equal. rewrite tree_all_children. unfold tally. apply length_flat. Qed.
Lemma Forall_impl' {A} (P Q : A -> Prop) l : (forall x, P x -> Q x) -> Forall P l -> Forall Q l.
Proof. intros H F. induction F; constructor; auto. Qed.

Lemma skip_false flags x y : skip_pair flags x y = false ->
  (forall o, x = Some o -> N.testbit (o_flags o) 0 = false) /\ (forall o, y = Some o -> N.testbit (o_flags o) 0 = false) /\
  (forall o, x = Some o -> y = None -> N.testbit (o_flags o) 2 = false /\ N.testbit flags 1 = false) /\
  (forall o, y = Some o -> x = None -> N.testbit (o_flags o) 3 = false /\ N.testbit flags 2 = false).
Proof.
  unfold skip_pair.
  change SF_SKIP_UNMATCHED_SRC with (2 ^ 1)%N. change MF_SKIP_UNMATCHED_SRC with (2 ^ 2)%N.
  change SF_SKIP_UNMATCHED_DST with (2 ^ 2)%N. change MF_SKIP_UNMATCHED_DST with (2 ^ 3)%N.
  change MF_IGNORE with (2 ^ 0)%N.
  destruct x as [x|], y as [y|]; rewrite ?has_flag_pow2, ?orb_false_iff; intros H; (split; [|split; [|split]]); intros o E; try discriminate; injection E as <-; try (intros; discriminate); tauto.
Qed.

(** *** worlds on the way *)
Lemma only_calls_ro D w l w1 w2 : only_calls D w l w1 -> read_only w1 w2 -> only_calls D w l w2.
Proof. intros H R. induction H; [constructor; eapply read_only_trans; eauto|econstructor; eauto]. Qed.
Lemma only_calls_snoc D w l u : only_calls D w l (de_world u) -> run_dcall D (de_call u) (de_world u) = (de_after u, de_result u) ->
  only_calls D w (l ++ [u]) (de_after u).
Proof.
  intros H E. remember (de_world u) as wu eqn:Eu. revert Eu. induction H as [w w' R|w v l w' R E' H IH]; intros ->; simpl.
  - eapply oc_call; [exact R|exact E|]. constructor. apply read_only_refl.
  - eapply oc_call; [exact R|exact E'|]. now apply IH.
Qed.
Lemma only_calls_calm D w l w' : only_calls D w l w' -> exists w1, at_rest w l w1 /\ read_only w1 w'.
Proof.
  intros H. induction H as [w w' R|w v l w' R E' H (w1 & C & R1)].
  - exists w. split; [now left|exact R].
  - exists w1. split; [|exact R1]. right. destruct C as [->|(u & I & ->)]; [exists v; split; [now left|reflexivity]|exists u; split; [now right|reflexivity]].
Qed.
Lemma at_rest_app w l l' w1 : at_rest w l w1 -> at_rest w (l ++ l') w1.
Proof. intros [->|(u & I & ->)]; [now left|]. right. exists u. split; [apply in_app_iff; now left|reflexivity]. Qed.
Lemma was_held_app w l l' a o : was_held w l a o -> was_held w (l ++ l') a o.
Proof. intros H r E. destruct (H r E) as (w1 & C & X). exists w1. split; [now apply at_rest_app|exact X]. Qed.
Lemma was_held_none w l a : was_held w l a None.
Proof. intros r E. discriminate. Qed.
Lemma held_now D w l w' a r : only_calls D w l w' ->
  (forall ad d, nth_error (w_ads w') a = Some ad -> ad_store ad = SLocal d -> holds w' a r) -> was_held w l a (Some r).
Proof.
  intros H K r' E. injection E as <-. destruct (only_calls_calm _ _ _ _ H) as (w1 & C & R). exists w1. split; [exact C|].
  intros ad d EA ES. destruct R as (_ & _ & F). pose proof (Forall2_nth _ _ _ a F) as X. rewrite EA in X. destruct X as (ad' & EA' & st & -> & X).
  rewrite ES in X. destruct st as [d'|]; [|contradiction]. destruct X as (names & -> & _).
  destruct (K _ _ EA' eq_refl) as (ad2 & d2 & t & u & (E1 & E2) & I). rewrite EA' in E1. injection E1 as <-. cbn in E2. injection E2 as <-.
  rewrite bucket_ext in I. exists ad, d, t, u. auto.
Qed.

Section Facts.
  Variables (env : wdenv) (D : duser) (w0 : world).

  Inductive ticks : nat -> list dentry -> nat -> Prop :=
  | tk_nil n : ticks n [] n
  | tk_quiet n n' : du_cb D = false -> n <= n' -> ticks n [] n'
  | tk_call n u k l n' : du_cb D = true -> n < k -> de_call u = DProgress k (wd_total env) -> ticks k l n' -> ticks n (u :: l) n'.
  Lemma ticks_quiet n l n' n2 : ticks n l n' -> du_cb D = false -> n' <= n2 -> ticks n l n2.
  Proof. intros H CB L. inversion H; subst; [now apply tk_quiet|apply tk_quiet; [auto|lia]|congruence]. Qed.
  Lemma ticks_snoc n l n' u k : ticks n l n' -> du_cb D = true -> n' < k -> de_call u = DProgress k (wd_total env) -> ticks n (l ++ [u]) k.
  Proof.
    intros H CB L E. induction H as [n|n n' C _|n v j l n' C Lj Ej H IH]; [|congruence|].
    - simpl. eapply tk_call; eauto. constructor.
    - simpl. eapply tk_call; eauto.
  Qed.

  Definition OC (s : dwstate) : Prop := only_calls D w0 (dw_log s) (dw_w s).
  Definition TK (s : dwstate) : Prop := ticks 0 (dw_log s) (dw_n s).
  Definition Inv (s : dwstate) : Prop := OC s /\ TK s /\ Forall no_raise (dw_log s).
  Definition ext (s s' : dwstate) : Prop := (exists l, dw_log s' = dw_log s ++ l) /\ dw_n s <= dw_n s'.
  Lemma ext_refl s : ext s s.
  Proof. split; [exists []; now rewrite app_nil_r|lia]. Qed.
  Lemma ext_trans a b c : ext a b -> ext b c -> ext a c.
  Proof. intros ((l & E) & N) ((l' & E') & N'). split; [exists (l ++ l'); rewrite E', E; now rewrite app_assoc|lia]. Qed.

  Definition fine (s : dwstate) {A} (x : dwstate * result A) (Q : dwstate -> A -> Prop) : Prop :=
    ext s (fst x) /\ OC (fst x) /\ TK (fst x) /\
    match snd x with Ok a => Forall no_raise (dw_log (fst x)) /\ Q (fst x) a | Err e => raises_last (dw_log (fst x)) (Err e : result A) end.
  Lemma fine_imp s {A} (x : dwstate * result A) (Q Q' : dwstate -> A -> Prop) :
    fine s x Q -> (forall s1 a, ext s s1 -> Inv s1 -> Q s1 a -> Q' s1 a) -> fine s x Q'.
  Proof. intros (E & O & T & R) H. split; [exact E|]. split; [exact O|]. split; [exact T|]. destruct (snd x); [|exact R]. destruct R as (F & R). split; [exact F|]. apply H; auto. repeat split; auto. Qed.
  Lemma fine_bind s {A B} (m : M dwstate A) (k : A -> M dwstate B) Q Q' :
    fine s (m s) Q -> (forall s1 a, ext s s1 -> Inv s1 -> Q s1 a -> fine s1 (k a s1) Q') -> fine s (bind m k s) Q'.
  Proof.
    intros (E & O & T & R) K. unfold bind. destruct (m s) as [s1 [a|e]]; cbn [fst snd] in *.
    - destruct R as (F & R). destruct (K s1 a E) as (E' & O' & T' & R'); [repeat split; auto|exact R|].
      split; [eapply ext_trans; eauto|]. auto.
    - split; [exact E|]. split; [exact O|]. split; [exact T|]. destruct R as [R|(l & u & x & R)]; [now left|]. right. exists l, u, x. intuition congruence.
  Qed.
  Lemma fine_ret s {A} (a : A) (Q : dwstate -> A -> Prop) : Inv s -> Q s a -> fine s (ret a s) Q.
  Proof. intros (O & T & F) H. split; [apply ext_refl|]. cbn. auto. Qed.
  Lemma fine_raise s {A} e (Q : dwstate -> A -> Prop) : Inv s -> fine s (raise e s) Q.
  Proof. intros (O & T & F). split; [apply ext_refl|]. cbn. split; [exact O|]. split; [exact T|]. now left. Qed.
  Lemma fine_lift s {A} (r : result A) (Q : dwstate -> A -> Prop) : Inv s -> (forall a, r = Ok a -> Q s a) -> fine s (lift r s) Q.
  Proof. intros (O & T & F) H. split; [apply ext_refl|]. cbn. split; [exact O|]. split; [exact T|]. destruct r; [auto|now left]. Qed.
  Lemma fine_read s {A} (m : M world A) (Q : dwstate -> A -> Prop) : Inv s -> read_only (dw_w s) (fst (m (dw_w s))) ->
    (forall a, snd (m (dw_w s)) = Ok a -> Q (mkDW (fst (m (dw_w s))) (dw_n s) (dw_log s)) a) -> fine s (rlift m s) Q.
  Proof.
    intros (O & T & F) R H. split; [split; [exists []; cbn; now rewrite app_nil_r|cbn; lia]|]. unfold rlift. cbn [fst snd].
    split; [unfold OC in *; cbn; eapply only_calls_ro; eauto|]. split; [exact T|]. destruct (snd (m (dw_w s))); [auto|now left].
  Qed.
  Lemma fine_incr s n (Q : dwstate -> unit -> Prop) : Inv s ->
    (forall s1, ext s s1 -> dw_n s1 = dw_n s + n ->
       (n <> 0 -> du_cb D = true -> exists u k, dw_log s1 = dw_log s ++ [u] /\ de_call u = DProgress k (wd_total env) /\ de_world u = dw_w s) ->
       (du_cb D = false -> dw_w s1 = dw_w s) -> Q s1 tt) -> fine s (wd_incr env D n s) Q.
  Proof.
    intros (O & T & F) H. destruct n as [|n].
    - cbn. split; [apply ext_refl|]. cbn. split; [exact O|]. split; [exact T|]. split; [exact F|]. apply H; [apply ext_refl|lia|congruence|reflexivity].
    - unfold wd_incr, bind, modify, get_state. cbn [dw_n]. destruct (du_cb D) eqn:CB.
      + unfold call_duser. cbn [dw_w dw_n dw_log]. set (k := dw_n s + S n) in *.
        set (u := mkDE (dw_w s) (DProgress k (wd_total env)) (fst (du_progress D k (wd_total env) (dw_w s)))
                       (match snd (du_progress D k (wd_total env) (dw_w s)) with Ok _ => Ok tt | Err x => Err x end)).
        split; [split; [exists [u]; reflexivity|cbn; lia]|]. cbn [fst snd]. unfold OC, TK. cbn [dw_w dw_n dw_log].
        split; [|split].
        * apply (only_calls_snoc D w0 (dw_log s) u); [exact O|]. cbn. destruct (du_progress D k (wd_total env) (dw_w s)) as [w' [[]|x]]; reflexivity.
        * eapply ticks_snoc; [exact T|exact CB| |reflexivity]. lia.
        * destruct (snd (du_progress D k (wd_total env) (dw_w s))) as [[]|x] eqn:ER.
          -- split; [apply Forall_app; split; [exact F|]; constructor; [unfold no_raise, u; cbn; try rewrite ER; reflexivity|constructor]|].
             apply H; [split; [exists [u]; unfold u; cbn; try rewrite ER; reflexivity|cbn; lia]|reflexivity| |discriminate].
             intros _ _. exists u, k. split; [unfold u; cbn; try rewrite ER; reflexivity|]. split; reflexivity.
          -- right. exists (dw_log s), u, x. split; [unfold u; cbn; try rewrite ER; reflexivity|]. split; [exact F|]. split; [unfold u; cbn; try rewrite ER; reflexivity|reflexivity].
      + cbn. split; [split; [exists []; cbn; now rewrite app_nil_r|cbn; lia]|]. split; [exact O|]. split; [eapply ticks_quiet; eauto; cbn; lia|].
        split; [exact F|]. apply H; [split; [exists []; cbn; now rewrite app_nil_r|cbn; lia]|reflexivity|congruence|reflexivity].
  Qed.
  Lemma fine_forM s {A} (l : list A) f : Inv s -> (forall s1 x, Inv s1 -> fine s1 (f x s1) (fun _ _ => True)) -> fine s (forM l f s) (fun _ _ => True).
  Proof.
    intros I H. revert s I. induction l as [|x l IH]; intros s I; cbn [forM]; [now apply fine_ret|].
    eapply fine_bind; [now apply H|]. intros s1 [] E1 I1 _. now apply IH.
  Qed.

  (** *** reads *)
  Lemma oget_eq o s : oget o s = (s, match o with None => Ok None | Some r => match nth_error (w_heap (dw_w s)) r with Some x => Ok (Some x) | None => Err DanglingRef end end).
  Proof.
    destruct o as [r|]; cbn; [|reflexivity]. unfold bind, rlift, hget. destruct (nth_error (w_heap (dw_w s)) r); cbn; now destruct s.
  Qed.
  Lemma fine_oget s o (Q : dwstate -> option obj -> Prop) : Inv s ->
    (forall x, object_in (dw_w s) o = x -> (o <> None -> x <> None) -> Q s x) -> fine s (oget o s) Q.
  Proof.
    intros (O & T & F) H. rewrite oget_eq. split; [apply ext_refl|]. cbn [fst snd]. split; [exact O|]. split; [exact T|].
    destruct o as [r|].
    - destruct (nth_error (w_heap (dw_w s)) r) as [x|] eqn:E; [|now left]. split; [exact F|]. apply H; [exact E|discriminate].
    - split; [exact F|]. apply H; [reflexivity|congruence].
  Qed.
  Lemma fine_adapter s a (Q : dwstate -> adapter -> Prop) : Inv s ->
    (forall ad, nth_error (w_ads (dw_w s)) a = Some ad -> Q s ad) -> fine s (rlift (get_adapter a) s) Q.
  Proof.
    intros (O & T & F) H. unfold rlift, get_adapter. split; [destruct s; destruct (nth_error _ a); apply ext_refl|].
    destruct (nth_error (w_ads (dw_w s)) a) as [ad|] eqn:E; cbn [fst snd]; (split; [exact O|split; [exact T|]]); [|now left].
    split; [exact F|]. destruct s. now apply H.
  Qed.
  Definition heldin (s : dwstate) (a : aid) (r : ref) : Prop := was_held w0 (dw_log s) a (Some r).
  Lemma heldin_ext s s' a l : ext s s' -> Forall (heldin s a) l -> Forall (heldin s' a) l.
  Proof. intros ((k & E) & _). apply Forall_impl'. intros r H. unfold heldin. rewrite E. now apply was_held_app. Qed.
  Lemma ro_all a t w1 : read_only w1 (fst (st_get_all a (MName t) w1)) /\
    forall rs ad d, snd (st_get_all a (MName t) w1) = Ok rs -> nth_error (w_ads w1) a = Some ad -> ad_store ad = SLocal d -> rs = dvals (bucket d t).
  Proof.
    destruct (nth_error (w_ads w1) a) as [ad|] eqn:E.
    2:{ unfold st_get_all, bind, get_adapter. rewrite E. split; [apply read_only_refl|discriminate]. }
    destruct (ad_store ad) as [d|sid] eqn:ES.
    - rewrite (st_get_all_local a (MName t) w1 ad d (conj E ES)). cbn [fst snd]. split; [eapply read_only_touch; split; eauto|].
      intros rs ad' d' X Y Z. injection X as <-. injection Y as <-. rewrite ES in Z. now injection Z as <-.
    - split; [|intros rs ad' d' X Y Z; injection Y as <-; congruence].
      assert (G : st_get_all a (MName t) w1 =
        mapM (redis_load a) (filter (glob (store_label sid ++ ":" ++ t ++ ":*")%string) (dkeys (w_redis w1))) w1).
      { unfold st_get_all, bind at 1, get_adapter. rewrite E, ES. reflexivity. }
      rewrite G. match goal with |- context [mapM _ ?ks w1] => destruct (redis_loads a ks w1) as (news & rs & r & X & Y) end.
      rewrite X. apply read_only_news.
  Qed.
  Lemma fine_all s a t : Inv s -> fine s (rlift (st_get_all a (MName t)) s) (fun s' rs => Forall (heldin s' a) rs /\ dw_n s' = dw_n s).
  Proof.
    intros I. destruct (ro_all a t (dw_w s)) as (R & H). apply fine_read; [exact I|exact R|]. intros rs E. split; [|reflexivity].
    apply Forall_forall. intros r IN. unfold heldin. cbn [dw_log]. apply (held_now D w0 (dw_log s) (dw_w s)); [apply I|].
    intros ad d EA ES. rewrite (H rs ad d E EA ES) in IN. unfold dvals in IN. apply in_map_iff in IN as ([u r'] & <- & IN). exists ad, d, t, u. auto.
  Qed.
  Lemma ro_by us : forall a t w1, read_only w1 (fst (st_get_by_uids a us (MName t) w1)) /\
    forall rs, snd (st_get_by_uids a us (MName t) w1) = Ok rs -> Forall (fun r => forall ad d, nth_error (w_ads w1) a = Some ad -> ad_store ad = SLocal d -> holds w1 a r) rs.
  Proof.
    intros a t w1. split.
    - destruct (by_uids_store us a t w1) as (w' & r & E & R & _). rewrite E. exact R.
    - revert w1. induction us as [|u us IH]; intros w1 rs E; [cbn in E; injection E as <-; constructor|].
      unfold st_get_by_uids in E. simpl in E.
      match type of E with context [mapM ?f us] => change (mapM f us) with (st_get_by_uids a us (MName t)) in E end.
      unfold bind at 1 2, get_adapter at 1 in E. destruct (nth_error (w_ads w1) a) as [ad|] eqn:EA; [|discriminate].
      destruct (ad_store ad) as [d|sid] eqn:ES.
      + unfold bind at 1 2 in E. rewrite put_store_eq in E. cbv beta iota in E.
        destruct (dget (bucket d t) u) as [r|] eqn:G; [|discriminate]. unfold ret at 1 in E. unfold bind in E.
        specialize (IH (upd_store w1 a (SLocal (touch d t)))).
        destruct (st_get_by_uids a us (MName t) (upd_store w1 a (SLocal (touch d t)))) as [w3 [rs'|e]]; [|discriminate].
        cbn [snd] in *. injection E as <-. specialize (IH rs' eq_refl). constructor.
        * intros ad' d' X Y. exists ad, d, t, u. split; [auto|]. now apply dget_Some_In.
        * revert IH. apply Forall_impl'. intros x H ad' d' X Y. injection X as <-. rewrite ES in Y. injection Y as <-.
          pose proof (is_local_upd w1 a ad d (touch d t) (conj EA ES)) as [L1 L2].
          destruct (H _ _ L1 L2) as (ad2 & d2 & t2 & u2 & (E1 & E2) & IN). rewrite L1 in E1. injection E1 as <-. rewrite L2 in E2. injection E2 as <-.
          rewrite touch_bucket in IN. exists ad, d, t2, u2. auto.
      + apply Forall_forall. intros x _ ad' d' X Y. injection X as <-. congruence.
  Qed.
  Lemma fine_by s a us t : Inv s -> fine s (rlift (st_get_by_uids a us (MName t)) s) (fun s' rs => Forall (heldin s' a) rs /\ dw_n s' = dw_n s).
  Proof.
    intros I. destruct (ro_by us a t (dw_w s)) as (R & H). apply fine_read; [exact I|exact R|]. intros rs E. split; [|reflexivity].
    specialize (H rs E). revert H. apply Forall_impl'. intros r H. unfold heldin. cbn [dw_log]. now apply (held_now D w0 (dw_log s) (dw_w s)); [apply I|].
  Qed.
  Lemma fine_children s a o f t : Inv s -> fine s (wd_children a o f t s) (fun s' rs => Forall (heldin s' a) rs /\ (o = None -> rs = []) /\ dw_n s' = dw_n s).
  Proof.
    intros I. unfold wd_children. eapply fine_bind; [apply (fine_oget s o (fun s' x => s' = s /\ (o = None -> x = None))); [exact I|]|].
    - intros x E _. split; [reflexivity|]. intros ->. now subst.
    - intros s1 x E1 I1 (-> & H). destruct x as [x|].
      + eapply fine_bind; [apply (fine_lift s (getattr_kids x f) (fun s' _ => s' = s)); auto|]. intros s2 us E2 I2 ->.
        eapply fine_imp; [apply fine_by; exact I|]. intros s3 rs _ _ (F & N). split; [exact F|]. split; [|exact N]. intros X. specialize (H X). discriminate.
      + apply fine_ret; auto.
  Qed.
  Lemma fine_index a rs : forall s acc, Inv s -> Forall (heldin s a) rs -> Forall (fun kr => heldin s a (snd kr)) acc ->
    fine s (wd_index rs acc s) (fun s' d => s' = s /\ Forall (fun kr => heldin s a (snd kr)) d /\ (rs = [] -> d = acc)).
  Proof.
    induction rs as [|r rs IH]; intros s acc I F G; cbn [wd_index]; [apply fine_ret; auto|].
    eapply fine_bind; [apply (fine_read s (hget r) (fun s' _ => s' = s)); [exact I| |]|].
    - unfold hget. destruct (nth_error _ r); apply read_only_refl.
    - intros x. unfold hget. destruct (nth_error (w_heap (dw_w s)) r); intros E; destruct s; reflexivity.
    - intros s1 o _ _ ->. eapply fine_bind; [apply (fine_lift s (get_unique_id o) (fun s' _ => s' = s)); auto|]. intros s2 uid _ _ ->.
      inversion F; subst. eapply fine_imp; [apply IH; auto|].
      + apply Forall_forall. intros [k x] IN. apply SyncFacts.In_dset in IN as [IN|E]; [|now inversion E; subst]. rewrite Forall_forall in G. apply (G _ IN).
      + intros s3 d _ _ (-> & H & _). split; [reflexivity|]. split; [exact H|]. discriminate.
  Qed.
  Lemma fine_validate l : forall s, Inv s -> fine s (wd_validate l s) (fun s' _ => s' = s).
  Proof.
    induction l as [|[so do] l IH]; intros s I; cbn [wd_validate]; [now apply fine_ret|].
    eapply fine_bind; [apply (fine_oget s so (fun s' x => s' = s)); auto|]. intros s1 x _ _ ->.
    eapply fine_bind; [apply (fine_oget s do (fun s' x => s' = s)); auto|]. intros s1 y _ _ ->.
    eapply fine_bind; [apply (fine_lift s _ (fun s' _ => s' = s)); auto|]. intros s1 z _ _ ->. now apply IH.
  Qed.

  (** *** pairs *)
  Definition held_pair (s : dwstate) (p : option ref * option ref) : Prop :=
    was_held w0 (dw_log s) (wd_src env) (fst p) /\ was_held w0 (dw_log s) (wd_dst env) (snd p).
  Lemma held_pair_ext s s' p : ext s s' -> held_pair s p -> held_pair s' p.
  Proof. intros ((k & E) & _) (A & B). unfold held_pair. rewrite E. split; now apply was_held_app. Qed.
  Lemma held_get s a (d : dict ref) u : Forall (fun kr => heldin s a (snd kr)) d -> was_held w0 (dw_log s) a (dget d u).
  Proof.
    intros F r E. apply dget_Some_In in E. rewrite Forall_forall in F. apply (F _ E r eq_refl).
  Qed.
  Lemma pair_refs_all ds dd (P : option ref * option ref -> Prop) : (forall u, In u (dkeys ds) \/ In u (dkeys dd) -> P (dget ds u, dget dd u)) -> Forall (fun kp => P (snd kp)) (pair_refs ds dd).
  Proof.
    intros H. unfold pair_refs.
    assert (G : forall ks c, (forall u, In u ks -> In u (dkeys ds) \/ In u (dkeys dd)) -> Forall (fun kp => P (snd kp)) c ->
      Forall (fun kp => P (snd kp)) (fold_left (fun c uid => dset c uid (dget ds uid, dget dd uid)) ks c)).
    { induction ks as [|k ks IH]; intros c K F; simpl; [exact F|]. apply IH; [intros u I; apply K; now right|].
      apply Forall_forall. intros [u p] I. apply SyncFacts.In_dset in I as [I|E]; [rewrite Forall_forall in F; apply (F _ I)|]. subst p. cbn. apply H, K. now left. }
    apply G; [auto|]. apply G; [auto|]. constructor.
  Qed.

  (** what is known of an element *)
  Definition known_elem (log : list dentry) (e : elem) : Prop :=
    (exists so do w1 wp, at_rest w0 log w1 /\ read_only w1 wp /\
       (du_cb D = true -> exists u k, In u log /\ de_call u = DProgress k (wd_total env) /\ wp = de_world u) /\
       pictures wp (wd_src env) (wd_dst env) (wd_flags env) so do e /\
       was_held w0 log (wd_src env) so /\ was_held w0 log (wd_dst env) do) /\
    (e_src e = None -> forall k, In k (children (e_kids e)) -> e_src k = None /\ e_dst k <> None) /\
    (e_dst e = None -> forall k, In k (children (e_kids e)) -> e_dst k = None /\ e_src k <> None).
  Lemma known_app l l' e : known_elem l e -> known_elem (l ++ l') e.
  Proof.
    intros ((so & do & w1 & wp & C & R & U & P & A & B) & H). split; [|exact H]. exists so, do, w1, wp. split; [now apply at_rest_app|]. split; [exact R|].
    split; [|split; [exact P|split; now apply was_held_app]]. intros CB. destruct (U CB) as (u & k & I & X). exists u, k. split; [apply in_app_iff; now left|exact X].
  Qed.
  Definition no_src (e : elem) : Prop := e_src e = None /\ e_dst e <> None.
  Definition no_dst (e : elem) : Prop := e_dst e = None /\ e_src e <> None.
  Definition got (s : dwstate) (lone_d lone_s : Prop) (s' : dwstate) (es : list elem) : Prop :=
    all_in (known_elem (dw_log s')) es /\ (lone_d -> Forall no_src es) /\ (lone_s -> Forall no_dst es) /\ dw_n s + tally es <= dw_n s'.
  Lemma all_known_ext s s' es : ext s s' -> all_in (known_elem (dw_log s)) es -> all_in (known_elem (dw_log s')) es.
  Proof. intros ((l & E) & _) H e x I J. rewrite E. apply known_app. exact (H e x I J). Qed.

  Section Rec.
    Variable rec : list ref -> list ref -> M dwstate (list elem).
    Hypothesis HR : forall s ss dd, Inv s -> Forall (heldin s (wd_src env)) ss -> Forall (heldin s (wd_dst env)) dd ->
      fine s (rec ss dd s) (got s (ss = []) (dd = [])).

    Lemma fine_child_types so do mapping : forall s gs, Inv s -> 
      all_in (known_elem (dw_log s)) (children gs) -> (so = None -> Forall no_src (children gs)) -> (do = None -> Forall no_dst (children gs)) ->
      fine s (wd_child_types env rec so do mapping gs s) (fun s' gs' =>
        all_in (known_elem (dw_log s')) (children gs') /\ (so = None -> Forall no_src (children gs')) /\ (do = None -> Forall no_dst (children gs')) /\
        dw_n s + tally (children gs') <= dw_n s' + tally (children gs)).
    Proof.
      induction mapping as [|[t f] mapping IH]; intros s gs I K NS ND; cbn [wd_child_types]; [apply fine_ret; [exact I|split; [exact K|split; [exact NS|split; [exact ND|lia]]]]|].
      eapply fine_bind; [apply fine_children; exact I|]. intros s1 ss E1 I1 (H1 & S1 & N1).
      eapply fine_bind; [apply fine_children; exact I1|]. intros s2 dd E2 I2 (H2 & S2 & N2).
      eapply fine_bind; [apply HR; [exact I2|eapply heldin_ext; eauto|exact H2]|]. intros s3 es E3 I3 (G1 & G2 & G3 & G4).
      eapply fine_bind; [apply (fine_lift s3 _ (fun s' gs' => s' = s3 /\ add_elems gs es = Ok gs')); auto|]. intros s4 gs' _ _ (-> & A).
      assert (E03 : ext s s3) by (eapply ext_trans; [exact E1|eapply ext_trans; eauto]).
      pose proof (tally_adds _ _ _ A) as TA.
      assert (FA : forall P, Forall P es -> Forall P (children gs) -> Forall P (children gs')).
      { intros P X Y. rewrite Forall_forall in *. intros x J. destruct (add_elems_in _ _ _ A x J); auto. }
      eapply fine_imp; [apply IH; [exact I3| | |]|].
      - apply (add_elems_all _ _ _ _ A); [exact G1|]. eapply all_known_ext; eauto.
      - intros X. apply FA; auto.
      - intros X. apply FA; auto.
      - intros s5 gs5 E5 I5 (X1 & X2 & X3 & X4). split; [exact X1|]. split; [exact X2|]. split; [exact X3|]. lia.
    Qed.
    Lemma fine_mapping s so do : Inv s -> fine s (wd_mapping env D so do s) (fun _ _ => True).
    Proof.
      intros I. unfold wd_mapping. eapply fine_bind; [apply (fine_oget s so (fun s' _ => s' = s)); auto|]. intros s1 x _ _ ->.
      eapply fine_bind; [apply (fine_oget s do (fun s' _ => s' = s)); auto|]. intros s1 y _ _ ->.
      destruct x as [x|], y as [y|]; try (now apply fine_ret); [|now apply fine_raise]. cbv zeta.
      assert (F : forall o (l m : dict string), forall s1, Inv s1 -> fine s1 (forM l (fun tf => if dmem m (fst tf) then ret tt
                           else x <- oget o ;; n <- lift (match x with Some o => kids_len o (snd tf) | None => Ok 0 end) ;; wd_incr env D n) s1) (fun _ _ => True)).
      { intros o l m s1 I1. apply fine_forM; [exact I1|]. intros s2 tf I2. destruct (dmem m (fst tf)); [now apply fine_ret|].
        eapply fine_bind; [apply (fine_oget s2 o (fun s' _ => s' = s2)); auto|]. intros s3 z _ _ ->.
        eapply fine_bind; [apply (fine_lift s2 _ (fun s' _ => s' = s2)); auto|]. intros s3 n _ _ ->. apply fine_incr; auto. }
      eapply fine_bind; [apply F; exact I|]. intros s1 ? E1 I1 _. eapply fine_bind; [apply F; exact I1|]. intros s2 ? E2 I2 _. now apply fine_ret.
    Qed.
    Lemma fine_pair s so do : Inv s -> held_pair s (so, do) ->
      fine s (wd_pair env D rec so do s) (fun s' e => match e with None => dw_n s <= dw_n s' | Some e => got s (so = None) (do = None) s' [e] end).
    Proof.
      intros I HP. unfold wd_pair.
      eapply fine_bind; [apply (fine_oget s so (fun s' x => s' = s /\ object_in (dw_w s) so = x /\ (so <> None -> x <> None))); auto|]. intros s1 x _ _ (-> & OX & TX).
      eapply fine_bind; [apply (fine_oget s do (fun s' x => s' = s /\ object_in (dw_w s) do = x /\ (do <> None -> x <> None))); auto|]. intros s1 y _ _ (-> & OY & TY).
      destruct (match x with Some s => Some s | None => y end) as [o|] eqn:EO; [|now apply fine_raise].
      eapply fine_bind; [apply (fine_lift s _ (fun s' _ => s' = s)); auto|]. intros s1 uid _ _ ->.
      eapply fine_bind; [apply (fine_lift s _ (fun s' n => s' = s /\ get_shortname o = Ok n)); auto|]. intros s1 name _ _ (-> & NM).
      destruct (skip_pair (wd_flags env) x y) eqn:SK.
      - eapply fine_bind; [apply (fine_incr s 1 (fun s' _ => dw_n s <= dw_n s')); [exact I|intros s1 _ E _ _; lia]|]. intros s1 ? E1 I1 N1. now apply fine_ret.
      - eapply fine_bind; [apply (fine_adapter s (wd_src env) (fun s' a => s' = s /\ nth_error (w_ads (dw_w s)) (wd_src env) = Some a)); auto|]. intros s1 sa _ _ (-> & ESA).
        eapply fine_bind; [apply (fine_adapter s (wd_dst env) (fun s' a => s' = s /\ nth_error (w_ads (dw_w s)) (wd_dst env) = Some a)); auto|]. intros s1 da _ _ (-> & EDA).
        set (delta := (if so then 1 else 0) + (if do then 1 else 0)).
        assert (DL : 1 <= delta).
        { unfold delta. destruct so, do; try lia. cbn in OX, OY. subst. discriminate. }
        eapply fine_bind; [apply (fine_incr s delta (fun s' _ => dw_n s' = dw_n s + delta /\ (du_cb D = true -> exists u k, dw_log s' = dw_log s ++ [u] /\ de_call u = DProgress k (wd_total env) /\ de_world u = dw_w s))); [exact I|]|].
        { intros s1 _ N U _. split; [exact N|]. apply U. lia. }
        intros s1 ? E1 I1 (N1 & U1).
        eapply fine_bind; [apply fine_mapping; exact I1|]. intros s2 mp E2 I2 _.
        eapply fine_bind; [apply fine_child_types; [exact I2|intros ? ? []|constructor|constructor]|]. intros s3 gs E3 I3 (G1 & G2 & G3 & G4).
        apply fine_ret; [exact I3|]. set (e := mkElem _ _ _ _ _ _ _ _).
        assert (E03 : ext s s3) by (eapply ext_trans; [exact E1|eapply ext_trans; eauto]).
        destruct E03 as ((l & EL) & _).
        assert (NX : x = None -> so = None) by (intros ->; destruct so; [destruct TX; congruence|reflexivity]).
        assert (NY : y = None -> do = None) by (intros ->; destruct do; [destruct TY; congruence|reflexivity]).
        assert (KE : known_elem (dw_log s3) e).
        { split; [|split].
          - destruct I as (O & _). destruct (only_calls_calm _ _ _ _ O) as (w1 & C & R). exists so, do, w1, (dw_w s).
            split; [rewrite EL; now apply at_rest_app|]. split; [exact R|]. split.
            { intros CB. destruct (U1 CB) as (u & k & E & X & Y). exists u, k. split; [|auto].
              destruct E2 as ((l2 & EL2) & _). destruct E3 as ((l3 & EL3) & _). rewrite EL3, EL2, E. rewrite <- !app_assoc. apply in_app_iff. right. now left. }
            split; [|rewrite EL; destruct HP; split; now apply was_held_app].
            assert (NN : x <> None \/ y <> None) by (destruct x, y; [left|left|right|]; congruence).
            apply skip_false in SK.
            split.
            + rewrite OX, OY. split; [exact TX|]. split; [exact TY|]. destruct NN as [NN|NN]; [left|right]; intros ->; cbn in *; congruence.
            + cbn. now rewrite OX.
            + cbn. now rewrite OY.
            + rewrite OX, OY, EO. intros o' Eo. injection Eo as <-. cbn. auto.
            + exists sa, da. auto.
            + rewrite OX, OY. destruct SK as (A & B & _). split; intros o' ->; [now apply A|now apply B].
            + rewrite OX. intros o' -> ->. destruct SK as (_ & _ & A & _). cbn in OY. subst y. now apply A.
            + rewrite OY. intros o' -> ->. destruct SK as (_ & _ & _ & A). cbn in OX. subst x. now apply A.
          - cbn. intros E k J. destruct x; [discriminate|]. specialize (G2 (NX eq_refl)). rewrite Forall_forall in G2. apply (G2 k J).
          - cbn. intros E k J. destruct y; [discriminate|]. specialize (G3 (NY eq_refl)). rewrite Forall_forall in G3. apply (G3 k J). }
        split; [|split; [|split]].
        + intros e' z [<-|[]] J. apply elem_all_kids in J as [->|(k & J1 & J2)]; [exact KE|]. exact (G1 k z J1 J2).
        + intros ->. cbn in OX. subst x. constructor; [|constructor]. split; [reflexivity|]. cbn. destruct y; [discriminate|discriminate].
        + intros ->. cbn in OY. subst y. constructor; [|constructor]. split; [reflexivity|]. cbn. destruct x; [discriminate|discriminate].
        + rewrite tally_cons, length_elem_all. cbn [e_kids e]. unfold tally at 2. cbn [map list_sum]. destruct E2 as (_ & N2). unfold tally in G4 at 2. cbn in G4. cbn. lia.
    Qed.
    Lemma fine_pairs (ld ls : Prop) l : forall s, Inv s -> Forall (fun kp => held_pair s (snd kp)) l ->
      (ld -> Forall (fun kp => fst (snd kp) = None) l) -> (ls -> Forall (fun kp => snd (snd kp) = None) l) ->
      fine s (wd_pairs env D rec l s) (got s ld ls).
    Proof.
      induction l as [|[k [so do]] l IH]; intros s I F LD LS; cbn [wd_pairs].
      - apply fine_ret; [exact I|]. split; [intros ? ? []|]. split; [constructor|]. split; [constructor|]. cbn. lia.
      - inversion F as [|? ? F1 F2]; subst. cbn [snd] in *.
        assert (LD' : ld -> so = None /\ Forall (fun kp => fst (snd kp) = None) l) by (intros X; specialize (LD X); inversion LD; auto).
        assert (LS' : ls -> do = None /\ Forall (fun kp => snd (snd kp) = None) l) by (intros X; specialize (LS X); inversion LS; auto).
        eapply fine_bind; [apply fine_pair; auto|]. intros s1 e E1 I1 H1.
        eapply fine_bind; [apply IH; [exact I1| |apply LD'|apply LS']|].
        { revert F2. apply Forall_impl'. intros p. now apply held_pair_ext. }
        intros s2 es E2 I2 (G1 & G2 & G3 & G4). apply fine_ret; [exact I2|]. destruct e as [e|].
        + destruct H1 as (H1 & H2 & H3 & H4). split; [|split; [|split]].
          * apply all_cons; [eapply all_known_ext; eauto|exact G1].
          * intros X. constructor; [|auto]. destruct (LD' X) as [Y _]. specialize (H2 Y). now inversion H2.
          * intros X. constructor; [|auto]. destruct (LS' X) as [Y _]. specialize (H3 Y). now inversion H3.
          * rewrite tally_cons in H4 |- *. change (tally []) with 0 in H4. lia.
        + split; [exact G1|]. split; [exact G2|]. split; [exact G3|]. lia.
    Qed.
    Lemma fine_body s ss dd : Inv s -> Forall (heldin s (wd_src env)) ss -> Forall (heldin s (wd_dst env)) dd ->
      fine s (wd_body env D rec ss dd s) (got s (ss = []) (dd = [])).
    Proof.
      intros I HS HD. unfold wd_body. eapply fine_bind; [apply (fine_index (wd_src env)); [exact I|exact HS|constructor]|]. intros s1 ds _ _ (-> & FS & NS).
      eapply fine_bind; [apply (fine_index (wd_dst env)); [exact I|exact HD|constructor]|]. intros s1 de _ _ (-> & FD & ND). cbv zeta.
      eapply fine_bind; [apply (fine_incr s _ (fun s' _ => dw_n s <= dw_n s')); [exact I|intros s1 _ E _ _; lia]|]. intros s1 ? E1 I1 N1.
      cbv beta in N1. eapply fine_bind; [apply fine_validate; exact I1|]. intros s2 ? _ _ ->.
      eapply fine_imp; [apply (fine_pairs (ss = []) (dd = [])); [exact I1| | |]|].
      - apply (pair_refs_all ds de (held_pair s1)). intros u _. eapply held_pair_ext; [exact E1|]. split; now apply held_get.
      - intros X. apply (pair_refs_all ds de (fun p => fst p = None)). intros u _. now rewrite (NS X).
      - intros X. apply (pair_refs_all ds de (fun p => snd p = None)). intros u _. cbn [snd]. now rewrite (ND X).
      - intros s3 es _ _ (G1 & G2 & G3 & G4). split; [exact G1|]. split; [exact G2|]. split; [exact G3|]. lia.
    Qed.
  End Rec.

  Lemma fine_list limit : forall s ss dd, Inv s -> Forall (heldin s (wd_src env)) ss -> Forall (heldin s (wd_dst env)) dd ->
    fine s (wd_list limit env D ss dd s) (got s (ss = []) (dd = [])).
  Proof. induction limit as [|limit IH]; intros; cbn [wd_list]; [now apply fine_raise|]. now apply fine_body. Qed.
  Lemma fine_types limit types : forall s gs, Inv s -> all_in (known_elem (dw_log s)) (children gs) ->
    fine s (wd_types limit env D types gs s) (fun s' gs' => all_in (known_elem (dw_log s')) (children gs') /\ dw_n s + tally (children gs') <= dw_n s' + tally (children gs)).
  Proof.
    induction types as [|t types IH]; intros s gs I K; cbn [wd_types]; [apply fine_ret; [exact I|split; [exact K|lia]]|].
    eapply fine_bind; [apply fine_all; exact I|]. intros s1 ss E1 I1 (H1 & N1).
    eapply fine_bind; [apply fine_all; exact I1|]. intros s2 dd E2 I2 (H2 & N2).
    eapply fine_bind; [apply fine_list; [exact I2|eapply heldin_ext; eauto|exact H2]|]. intros s3 es E3 I3 (G1 & _ & _ & G4).
    eapply fine_bind; [apply (fine_lift s3 _ (fun s' gs' => s' = s3 /\ add_elems gs es = Ok gs')); auto|]. intros s4 gs' _ _ (-> & A).
    assert (E03 : ext s s3) by (eapply ext_trans; [exact E1|eapply ext_trans; eauto]).
    pose proof (tally_adds _ _ _ A) as TA.
    eapply fine_imp; [apply IH; [exact I3|]|].
    - apply (add_elems_all _ _ _ _ A); [exact G1|]. eapply all_known_ext; eauto.
    - intros s5 gs5 _ _ (X1 & X2). split; [exact X1|]. lia.
  Qed.
  Lemma fine_skipped types s : Inv s -> fine s (wd_skipped env D types s) (fun _ _ => True).
  Proof.
    intros I. apply fine_forM; [exact I|]. clear s I. intros s t I.
    eapply fine_bind; [apply (fine_adapter s _ (fun s' _ => s' = s)); auto|]. intros s1 da _ _ ->. destruct (smem t (ad_top da)).
    - eapply fine_bind; [apply fine_all; exact I|]. intros s1 l E1 I1 _. apply fine_incr; auto.
    - eapply fine_bind; [apply (fine_adapter s _ (fun s' _ => s' = s)); auto|]. intros s1 sa _ _ ->. destruct (smem t (ad_top sa)); [|now apply fine_ret].
      eapply fine_bind; [apply fine_all; exact I|]. intros s1 l E1 I1 _. apply fine_incr; auto.
  Qed.
  Lemma fine_main limit s : Inv s -> dw_n s = 0 ->
    fine s (wd_main env D limit s) (fun s' gs => all_in (known_elem (dw_log s')) (children gs) /\ tally (children gs) <= dw_n s').
  Proof.
    intros I N. unfold wd_main.
    eapply fine_bind; [apply (fine_adapter s _ (fun s' _ => s' = s)); auto|]. intros s1 da _ _ ->.
    eapply fine_bind; [apply (fine_adapter s _ (fun s' _ => s' = s)); auto|]. intros s1 sa _ _ ->.
    eapply fine_bind; [apply fine_skipped; exact I|]. intros s1 ? E1 I1 _.
    eapply fine_bind; [apply (fine_adapter s1 _ (fun s' _ => s' = s1)); auto|]. intros s2 da' _ _ ->.
    eapply fine_bind; [apply (fine_adapter s1 _ (fun s' _ => s' = s1)); auto|]. intros s2 sa' _ _ ->.
    eapply fine_imp; [apply fine_types; [exact I1|intros ? ? []]|]. intros s2 gs _ _ (X1 & X2). split; [exact X1|]. change (tally (children [])) with 0 in X2. lia.
  Qed.
End Facts.
