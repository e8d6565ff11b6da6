(** * RemoveFacts: BaseStore.remove whatever happens (any recursion limit, any outcome). *)
From Verif Require Export StoreMore SyncSpec.

(** fewer entries, everything else as before *)
Record shrunk (a : aid) (w : world) (l : reg) (w' : world) (l' : reg) : Prop := mkShrunk {
  sh_reg : RegOf w' a l';
  sh_sub : subreg l' l;
  sh_heap : same_but_adapter (w_heap w) (w_heap w');
  sh_frame : framed a w w';
  sh_trace : exists n, w_trace w' = w_trace w ++ repeat not_found_log n
}.
Lemma shrunk_refl a w l : RegOf w a l -> shrunk a w l w l.
Proof.
  intros R. constructor; [exact R|apply subreg_refl|apply sba_refl|apply framed_refl|].
  exists 0. simpl. now rewrite app_nil_r.
Qed.
Lemma shrunk_trans a w1 l1 w2 l2 w3 l3 : shrunk a w1 l1 w2 l2 -> shrunk a w2 l2 w3 l3 -> shrunk a w1 l1 w3 l3.
Proof.
  intros [R1 S1 H1 F1 [n1 T1]] [R2 S2 H2 F2 [n2 T2]]. constructor.
  - exact R2.
  - eapply subreg_trans; eauto.
  - eapply sba_trans; eauto.
  - eapply framed_trans; eauto.
  - exists (n1 + n2). rewrite T2, T1, <- app_assoc, <- repeat_app. reflexivity.
Qed.
Lemma shrunk_touch a w l ad d t : RegOf w a l -> is_local w a ad d -> shrunk a w l (upd_store w a (SLocal (touch d t))) l.
Proof.
  intros R L. constructor; [exact (RegOf_touch _ _ _ _ _ t R L)|apply subreg_refl| |apply framed_upd|].
  - rewrite upd_store_heap. apply sba_refl.
  - exists 0. simpl. now rewrite app_nil_r, upd_store_trace.
Qed.

(** what may have been removed: the object itself, and with [b] whatever is below *)
Definition removable (a : aid) (w : world) (o : obj) (t u : string) (b : bool) (k : string * string) : Prop :=
  k = (t, u) \/
  (b = true /\ exists t1 u1, lists o t1 u1 /\ lookup w a t1 u1 <> None /\ reaches w a (t1, u1) k).

Lemma gone_split l1 l2 l3 k : gone l1 l3 k -> gone l1 l2 k \/ gone l2 l3 k.
Proof.
  intros [G1 G2]. destruct (reg_find l2 (fst k) (snd k)) eqn:E; [right|left]; split; congruence.
Qed.

Lemma gone_del l t u k : NoDup (map fst l) -> gone l (reg_del l t u) k -> k = (t, u).
Proof.
  intros ND [G1 G2]. destruct k as [t1 u1]. simpl in *. rewrite reg_del_find in G2 by exact ND.
  destruct (String.eqb_spec t1 t); [destruct (String.eqb_spec u1 u)|]; simpl in G2; congruence.
Qed.
Lemma gone_refl l k : ~ gone l l k.
Proof. intros [G1 G2]. congruence. Qed.

Lemma remove_any a fuel : forall w l r o t u b,
  RegOf w a l -> keyed w a -> nth_error (w_heap w) r = Some o -> get_type o = t -> get_unique_id o = Ok u ->
  exists l', shrunk a w l (fst (st_remove fuel a r b w)) l' /\
    (forall k, gone l l' k -> removable a w o t u b k) /\
    (snd (st_remove fuel a r b w) = Ok tt -> reg_find l' t u = None) /\
    (reg_find l t u = None -> fuel <> 0 -> snd (st_remove fuel a r b w) = Err ObjectNotFound) /\
    (b = false -> reg_find l t u <> None -> fuel <> 0 -> snd (st_remove fuel a r b w) = Ok tt /\ l' = reg_del l t u).
Proof.
  induction fuel as [|fuel IH]; intros w l r o t u b R K Ho Ht Hu.
  { exists l. simpl. split; [now apply shrunk_refl|]. split; [intros k G; now apply gone_refl in G|].
    split; [discriminate|]. split; congruence. }
  pose proof R as (ad & d & L & ND & NL & HB).
  pose proof (st_remove_item_local a t u w ad d L) as E. rewrite HB, entries_find in E.
  assert (EQ : st_remove (S fuel) a r b w =
    (st_remove_item a t u ;;; clear_adapter r ;;;
     if b then forM (get_children_mapping o) (fun tf =>
       child_ids <- lift (getattr_kids o (snd tf)) ;; forM child_ids (drop_child fuel a (fst tf))) else ret tt) w).
  { cbn [st_remove]. rewrite (bind_eq _ _ _ _ _ (hget_eq _ _ _ Ho)).
    unfold lift at 1. unfold bind at 1. rewrite Hu, Ht. destruct b; reflexivity. }
  rewrite EQ. clear EQ.
  destruct (reg_find l t u) as [r0|] eqn:F.
  2:{ rewrite (bind_eq _ _ _ _ _ E). simpl. exists l. split; [now apply (shrunk_touch a w l ad d t)|].
      split; [intros k G; now apply gone_refl in G|]. split; [discriminate|]. split; [reflexivity|congruence]. }
  rewrite (bind_eq _ _ _ _ _ E).
  set (w1 := upd_store w a (SLocal (dset d t (ddel (entries l t) u)))) in *.
  pose proof (RegOf_del _ _ _ _ _ t u R L) as R1. rewrite HB in R1. fold w1 in R1.
  assert (Hh : w_heap w1 = w_heap w) by apply upd_store_heap.
  pose proof (clear_adapter_eq w1 r o) as CA. rewrite Hh in CA. specialize (CA Ho).
  set (w2 := if adapter_truthy w1 (o_adapter o) then set_heap w1 (list_set (w_heap w) r (set_o_adapter o None)) else w1) in *.
  rewrite (bind_eq _ _ _ _ _ CA).
  assert (SH : shrunk a w l w2 (reg_del l t u)).
  { constructor.
    - unfold w2. destruct (adapter_truthy _ _); [apply RegOf_set_heap|]; exact R1.
    - apply subreg_del.
    - unfold w2. destruct (adapter_truthy _ _); simpl; [now apply sba_set|]. rewrite Hh. apply sba_refl.
    - apply framed_trans with w1; [apply framed_upd|].
      unfold w2. destruct (adapter_truthy _ _); [apply framed_set_heap|apply framed_refl].
    - exists 0. simpl. rewrite app_nil_r. unfold w2.
      destruct (adapter_truthy _ _); simpl; apply upd_store_trace. }
  assert (GD : forall k, gone l (reg_del l t u) k -> k = (t, u)) by (intros k; now apply gone_del).
  assert (N0 : reg_find (reg_del l t u) t u = None) by (rewrite reg_del_find, !String.eqb_refl by exact NL; reflexivity).
  destruct b.
  2:{ exists (reg_del l t u). simpl. split; [exact SH|]. split; [intros k G; left; now apply GD|].
      split; [auto|]. split; [discriminate|auto]. }
  (* one child *)
  assert (ONE : forall t' id w1' l1, shrunk a w l w1' l1 -> lists o t' id ->
    exists l2, shrunk a w1' l1 (fst (drop_child fuel a t' id w1')) l2 /\
      forall k, gone l1 l2 k -> removable a w o t u true k).
  { clear - IH R K NL. intros t' id w1 l1 S1 HL.
    pose proof (sh_reg _ _ _ _ _ S1) as R1.
    destruct (st_get_reg a t' id w1 l1 R1) as (ad & d & L1 & G).
    unfold drop_child, try_catch. rewrite (bind_eq _ _ _ _ _ G).
    pose proof (shrunk_touch a w1 l1 ad d t' R1 L1) as S1'.
    set (w1' := upd_store w1 a (SLocal (touch d t'))) in *.
    assert (EV : forall w2 l2, shrunk a w1 l1 w2 l2 -> shrunk a w1 l1 (add_event w2 not_found_log) l2).
    { intros w2 l2 [R2 S2 H2 F2 [n2 T2]]. constructor; auto.
      exists (n2 + 1). simpl w_trace. rewrite T2, repeat_app, app_assoc. reflexivity. }
    destruct (reg_find l1 t' id) as [c|] eqn:E.
    2:{ exists l1. simpl. split; [now apply EV|]. intros k G0. now apply gone_refl in G0. }
    assert (K1 : keyed w1' a).
    { eapply (keyed_sub w w1'); eauto; [exact (sh_reg _ _ _ _ _ S1')|exact (sh_sub _ _ _ _ _ S1)|].
      unfold w1'. rewrite upd_store_heap. exact (sh_heap _ _ _ _ _ S1). }
    assert (FL : lookup w1' a t' id = Some c) by now rewrite (RegOf_lookup _ _ _ _ _ (sh_reg _ _ _ _ _ S1')).
    destruct (K1 _ _ _ FL) as (oc & Hoc & Htc & Huc & _).
    destruct (IH w1' l1 c oc t' id true (sh_reg _ _ _ _ _ S1') K1 Hoc Htc Huc) as (l2 & S2 & G2 & _).
    assert (S12 : shrunk a w1 l1 (fst (st_remove fuel a c true w1')) l2) by (eapply shrunk_trans; eauto).
    assert (GG : forall k, gone l1 l2 k -> removable a w o t u true k).
    { intros k Gk. right. split; [reflexivity|]. exists t', id. split; [exact HL|].
      assert (P : lookup w a t' id <> None).
      { rewrite (RegOf_lookup _ _ _ _ _ R). rewrite (subreg_find _ _ _ _ _ NL (sh_sub _ _ _ _ _ S1) E). discriminate. }
      split; [exact P|].
      assert (S01 : shrunk a w l w1' l1) by (eapply shrunk_trans; eauto).
      apply (reaches_sub w w1' a l l1 _ _ R (sh_reg _ _ _ _ _ S01) NL (sh_sub _ _ _ _ _ S01) (sh_heap _ _ _ _ _ S01)).
      destruct (G2 k Gk) as [->|(_ & t1 & u1 & (f1 & ids1 & A1 & A2 & A3) & A4 & A5)]; [constructor|].
      econstructor; [|exact A5]. exists c, oc, f1, ids1. repeat split; assumption. }
    destruct (st_remove fuel a c true w1') as [w2 [[]|ex]]; simpl in *.
    - exists l2. split; assumption.
    - destruct (is_not_found ex); simpl; exists l2; (split; [|exact GG]); [now apply EV|exact S12]. }
  (* a list of children *)
  assert (MANY : forall t' ids, (forall id, In id ids -> lists o t' id) -> forall w1' l1, shrunk a w l w1' l1 ->
    exists l2, shrunk a w1' l1 (fst (forM ids (drop_child fuel a t') w1')) l2 /\
      forall k, gone l1 l2 k -> removable a w o t u true k).
  { intros t' ids. induction ids as [|id ids IHi]; intros HC w1' l1 S1; simpl.
    - exists l1. split; [apply shrunk_refl; exact (sh_reg _ _ _ _ _ S1)|]. intros k G. now apply gone_refl in G.
    - destruct (ONE t' id w1' l1 S1 (HC id (or_introl eq_refl))) as (l2 & S2 & G2).
      unfold bind. destruct (drop_child fuel a t' id w1') as [w2' [[]|ex]]; simpl in S2.
      + destruct (IHi (fun i Hi => HC i (or_intror Hi)) w2' l2 (shrunk_trans _ _ _ _ _ _ _ S1 S2)) as (l3 & S3 & G3).
        exists l3. split; [eapply shrunk_trans; eauto|].
        intros k G. destruct (gone_split l1 l2 l3 k G); auto.
      + exists l2. simpl. split; assumption. }
  assert (ALL : forall mapping, incl mapping (get_children_mapping o) -> forall w1' l1, shrunk a w l w1' l1 ->
    exists l2, shrunk a w1' l1 (fst (forM mapping (fun tf => child_ids <- lift (getattr_kids o (snd tf)) ;;
                                        forM child_ids (drop_child fuel a (fst tf))) w1')) l2 /\
      forall k, gone l1 l2 k -> removable a w o t u true k).
  { induction mapping as [|[t' f] mapping IHm]; intros HC w1' l1 S1; cbn [forM].
    - exists l1. split; [apply shrunk_refl; exact (sh_reg _ _ _ _ _ S1)|]. intros k G. now apply gone_refl in G.
    - cbn [fst snd]. unfold bind at 2. unfold lift, getattr_kids. unfold bind at 1.
      destruct (dget (o_kids o) f) as [ids|] eqn:EF.
      + destruct (MANY t' ids) with (w1' := w1') (l1 := l1) as (l2 & S2 & G2); [|exact S1|].
        { intros id Hi. exists f, ids. split; [apply HC; now left|]. split; assumption. }
        destruct (forM ids (drop_child fuel a t') w1') as [w2' [[]|ex]]; cbn [fst] in S2.
        * destruct (IHm) with (w1' := w2') (l1 := l2) as (l3 & S3 & G3).
          { intros x Hx. apply HC. now right. }
          { eapply shrunk_trans; eauto. }
          exists l3. split; [eapply shrunk_trans; eauto|].
          intros k G. destruct (gone_split l1 l2 l3 k G); auto.
        * exists l2. split; assumption.
      + exists l1. cbn [fst]. split; [apply shrunk_refl; exact (sh_reg _ _ _ _ _ S1)|]. intros k G. now apply gone_refl in G. }
  destruct (ALL (get_children_mapping o) (incl_refl _) w2 (reg_del l t u) SH) as (l3 & S3 & G3).
  exists l3. unfold drop_child, not_found_log in *. split; [eapply shrunk_trans; eauto|].
  split; [|split; [|split; [discriminate|discriminate]]].
  - intros k G. destruct (gone_split l (reg_del l t u) l3 k G) as [G1|G1]; [left; now apply GD|now apply G3].
  - intros _. destruct (reg_find l3 t u) eqn:Y; [|reflexivity].
    assert (ND2 : NoDup (map fst (reg_del l t u))) by now apply NoDup_map_filter.
    apply (subreg_find _ _ _ _ _ ND2 (sh_sub _ _ _ _ _ S3)) in Y. congruence.
Qed.
