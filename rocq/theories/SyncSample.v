(** * SyncSample: boolean tests of the hypotheses of the synchronisation theorems, for the examples. *)
From Verif Require Export SyncSkip Samples.

Fixpoint nodupb (l : list string) : bool := match l with [] => true | x :: l' => negb (smem x l') && nodupb l' end.
Lemma nodupb_ok l : nodupb l = true -> NoDup l.
Proof.
  induction l as [|x l IH]; simpl; [constructor|]. rewrite andb_true_iff, negb_true_iff. intros [H1 H2]. constructor; [|auto].
  intros I. apply smem_In in I. congruence.
Qed.

Definition entries (d : dict (dict ref)) : list (string * string * ref) :=
  flat_map (fun tb => map (fun ur => (fst tb, fst ur, snd ur)) (snd tb)) d.
Definition local_data (w : world) (a : aid) : dict (dict ref) :=
  match nth_error (w_ads w) a with Some ad => match ad_store ad with SLocal d => d | _ => [] end | None => [] end.
Lemma lookup_entry w a t u r : lookup w a t u = Some r -> In (t, u, r) (entries (local_data w a)).
Proof.
  unfold lookup, local_data. destruct (nth_error (w_ads w) a) as [ad|]; [|discriminate]. destruct (ad_store ad) as [d|]; [|discriminate].
  intros H. unfold entries. apply in_flat_map. unfold bucket in H. destruct (dget d t) as [b|] eqn:E; [|discriminate].
  exists (t, b). split; [now apply dget_Some_In|]. apply in_map_iff. exists (u, r). split; [reflexivity|]. now apply dget_Some_In.
Qed.
Lemma holds_entry w a r : holds w a r -> exists t u, In (t, u, r) (entries (local_data w a)).
Proof.
  intros (ad & d & t & u & (E1 & E2) & H). exists t, u. unfold local_data. rewrite E1, E2. unfold entries. apply in_flat_map.
  unfold bucket in H. destruct (dget d t) as [b|] eqn:E; [|destruct H].
  exists (t, b). split; [now apply dget_Some_In|]. apply in_map_iff. exists (u, r). now split.
Qed.

Definition localb (w : world) (a : aid) : bool :=
  match nth_error (w_ads w) a with
  | Some ad => match ad_store ad with
               | SLocal d => nodupb (dkeys d) && forallb (fun mb => nodupb (dkeys (snd mb))) d
               | _ => false
               end
  | None => false
  end.
Lemma localb_ok w a : localb w a = true -> local_ok w a.
Proof.
  unfold localb, local_ok. destruct (nth_error (w_ads w) a) as [ad|] eqn:E; [|discriminate].
  destruct (ad_store ad) as [d|] eqn:ES; [|discriminate]. rewrite andb_true_iff, forallb_forall. intros [H1 H2].
  exists ad, d. split; [reflexivity|]. split; [exact ES|]. split; [now apply nodupb_ok|].
  intros m b I. apply nodupb_ok. now apply (H2 (m, b)).
Qed.

Definition keyedb (w : world) (a : aid) : bool :=
  forallb (fun k => match nth_error (w_heap w) (snd k) with
                    | Some o => String.eqb (get_type o) (fst (fst k)) && has_uid (snd (fst k)) o &&
                                forallb (fun tf => dmem (o_kids o) (snd tf)) (c_children (o_cls o))
                    | None => false
                    end) (entries (local_data w a)).
Lemma keyedb_ok w a : keyedb w a = true -> keyed w a.
Proof.
  unfold keyedb. rewrite forallb_forall. intros H t u r L. specialize (H _ (lookup_entry _ _ _ _ _ L)). simpl in H.
  destruct (nth_error (w_heap w) r) as [o|]; [|discriminate]. rewrite !andb_true_iff in H. destruct H as [[H1 H2] H3].
  exists o. split; [reflexivity|]. split; [now apply String.eqb_eq|]. split.
  - unfold has_uid in H2. destruct (get_unique_id o) as [u'|]; [|discriminate]. apply String.eqb_eq in H2. now subst.
  - intros t' f I E. rewrite forallb_forall in H3. specialize (H3 _ I). simpl in H3. unfold dmem in H3. now rewrite E in H3.
Qed.

(** all classes in sight *)
Definition all_classes (w : world) (a : aid) : list cls :=
  (match nth_error (w_ads w) a with Some ad => dvals (ad_classes ad) | None => [] end) ++ map o_cls (w_heap w).
Lemma dst_class_in w a c : dst_class w a c -> In c (all_classes w a).
Proof.
  unfold all_classes. rewrite in_app_iff. intros [(ad & t & E & G)|(t & u & r & o & _ & E & <-)].
  - left. rewrite E. apply dget_Some_In in G. apply in_map_iff. now exists (t, c).
  - right. apply in_map. eapply nth_error_In; eauto.
Qed.
Definition properb (w : world) (a : aid) : bool :=
  localb w a && keyedb w a && forallb (fun c => nodupb (dvals (c_children c))) (all_classes w a) &&
  forallb (fun c => forallb (fun f => smem f (c_kid_fields c)) (dvals (c_children c))) (all_classes w a).
Lemma properb_ok w a : properb w a = true -> proper_dst w a.
Proof.
  unfold properb. rewrite !andb_true_iff, !forallb_forall. intros [[[H1 H2] H3] H4]. unfold proper_dst.
  split; [now apply localb_ok|]. split; [now apply keyedb_ok|]. split.
  - intros c D. apply nodupb_ok, H3. now apply dst_class_in.
  - intros ad t c E G f I. assert (J : In c (all_classes w a)) by (apply dst_class_in; left; eauto).
    specialize (H4 c J). rewrite forallb_forall in H4. apply smem_In. auto.
Qed.

Definition shareb (w : world) (a b : aid) : bool :=
  forallb (fun x => forallb (fun y => negb (Nat.eqb (snd x) (snd y))) (entries (local_data w b))) (entries (local_data w a)).
Lemma shareb_ok w a b : shareb w a b = true -> localb w a = true -> share_nothing w a b.
Proof.
  intros H L. split.
  - intros r Ha Hb. destruct (holds_entry _ _ _ Ha) as (t & u & I). destruct (holds_entry _ _ _ Hb) as (t' & u' & J).
    unfold shareb in H. rewrite forallb_forall in H. specialize (H _ I). rewrite forallb_forall in H. specialize (H _ J).
    simpl in H. now rewrite Nat.eqb_refl in H.
  - intros i j (ad & E & S) _. unfold localb in L. rewrite E, S in L. discriminate.
Qed.

Definition same_idsb (w : world) (a : aid) : bool :=
  match nth_error (w_ads w) a with
  | Some ad => forallb (fun tc => String.eqb (c_modelname (snd tc)) (fst tc) &&
                         forallb (fun o => negb (String.eqb (get_type o) (fst tc)) ||
                                           if list_eq_dec string_dec (c_identifiers (snd tc)) (c_identifiers (o_cls o)) then true else false)
                                 (w_heap w ++ dvals (w_redis w))) (ad_classes ad)
  | None => false
  end.
Lemma same_idsb_ok w a : same_idsb w a = true -> same_ids w a.
Proof.
  unfold same_idsb, same_ids. destruct (nth_error (w_ads w) a) as [ad|]; [|discriminate].
  rewrite forallb_forall. intros H ad' t c o E G X T. injection E as <-. apply dget_Some_In in G.
  specialize (H _ G). simpl in H. apply andb_true_iff in H as [H1 H2]. split; [now apply String.eqb_eq|].
  rewrite forallb_forall in H2. assert (I : In o (w_heap w ++ dvals (w_redis w))) by (apply in_app_iff; exact X).
  specialize (H2 o I). rewrite T, String.eqb_refl in H2. simpl in H2. destruct list_eq_dec; [assumption|discriminate].
Qed.

Definition sets_nob (w : world) (a : aid) (gs : dict (dict elem)) : bool :=
  forallb (fun e => match e_src e with
                    | Some s => forallb (fun c => forallb (fun k => negb (smem k (c_identifiers c))) (dkeys s)) (all_classes w a)
                    | None => true
                    end) (tree_all gs).
Lemma sets_nob_ok w a gs : sets_nob w a gs = true -> sets_no_identifier w a gs.
Proof.
  unfold sets_nob. rewrite forallb_forall. intros H e ad ce c s k O _ _ D _ ES IK. apply In_tree_all in O.
  specialize (H e O). rewrite ES in H. rewrite forallb_forall in H. specialize (H c (dst_class_in _ _ _ D)).
  rewrite forallb_forall in H. specialize (H k IK). rewrite negb_true_iff in H. intros J. apply smem_In in J. congruence.
Qed.

Lemma Ok_inj {A} (x y : A) : Ok x = Ok y -> x = y.
Proof. congruence. Qed.

(** the sample pair *)
Lemma w0_share : share_nothing w0 0 1.  Proof. apply shareb_ok; reflexivity. Qed.
Lemma w0_proper : proper_dst w0 1.  Proof. apply properb_ok; reflexivity. Qed.
Lemma w0_same_ids : same_ids w0 1.  Proof. apply same_idsb_ok; reflexivity. Qed.
Lemma d0_sets : sets_no_identifier w0 1 (d_groups d0).  Proof. apply sets_nob_ok; vm_compute; reflexivity. Qed.
(** hooks of a destination that refuses updates and forgets to return deleted objects *)
Definition bad_hooks : hooks := fun _ c =>
  match c with
  | HCreate _ _ _ => mkOut true None [("note", VStr "made")] HReturn
  | HUpdate _ _ => mkOut true None [("note", VStr "changed")] (HRaise ObjectNotUpdated)
  | HDelete _ => mkOut true None [] HReturnNone
  end.
