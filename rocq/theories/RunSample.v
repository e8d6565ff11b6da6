(** * RunSample: checking the hypotheses of PropRun on concrete worlds. *)
From Verif Require Export SyncSample FromMore.

Definition name_of (w : world) (dst : aid) (e : elem) : option (string * string) :=
  match nth_error (w_ads w) dst with
  | Some ad => match dget (ad_classes ad) (e_type e) with
               | Some c => match create_unique_id c (e_keys e) with Ok u => Some (c_modelname c, u) | Err _ => None end
               | None => None
               end
  | None => None
  end.
Lemma name_of_ok w dst e k : names w dst e k -> name_of w dst e = Some k.
Proof. intros (ad & c & H1 & H2 & H3 & H4). unfold name_of. rewrite H1, H2, H4, <- H3. now destruct k. Qed.
Definition obj_of (w : world) (dst : aid) (e : elem) : option obj :=
  match name_of w dst e with
  | Some k => match lookup w dst (fst k) (snd k) with Some r => nth_error (w_heap w) r | None => None end
  | None => None
  end.
Lemma obj_of_ok w dst e o : dst_obj w dst e o -> obj_of w dst e = Some o.
Proof. intros (k & r & H1 & H2 & H3). unfold obj_of. now rewrite (name_of_ok _ _ _ _ H1), H2. Qed.

Definition key_is (x : option (string * string)) (k : string * string) : bool :=
  match x with Some k' => String.eqb (fst k') (fst k) && String.eqb (snd k') (snd k) | None => false end.
Lemma key_is_refl k : key_is (Some k) k = true.
Proof. simpl. now rewrite !String.eqb_refl. Qed.
Definition deletes (gs : dict (dict elem)) : list elem := filter (fun e => is_delete (e_action e)) (tree_all gs).
Definition creates (gs : dict (dict elem)) : list elem := filter (fun e => is_create (e_action e)) (tree_all gs).
Definition well_posedb (w : world) (dst : aid) (gs : dict (dict elem)) : bool :=
  sets_nob w dst gs &&
  forallb (fun e => match name_of w dst e with Some k => forallb (fun e' => negb (key_is (name_of w dst e') k)) (deletes gs) | None => true end) (creates gs) &&
  forallb (fun e => match e_action e with
                    | Some _ => true
                    | None => match name_of w dst e with
                              | Some k => match lookup w dst (fst k) (snd k) with Some _ => true | None => false end &&
                                          forallb (fun e' => negb (key_is (name_of w dst e') k) &&
                                            match obj_of w dst e' with Some o => negb (N.testbit (o_flags o) 1) | None => true end) (deletes gs)
                              | None => true end end) (tree_all gs).
Lemma In_tree gs e : occurs e gs -> In e (tree_all gs).
Proof. intros H. now apply In_tree_all in H. Qed.
Lemma In_deletes gs e : occurs e gs -> e_action e = Some ADelete -> In e (deletes gs).
Proof. intros H E. apply filter_In. split; [now apply In_tree|now rewrite E]. Qed.
Lemma In_creates gs e : occurs e gs -> e_action e = Some ACreate -> In e (creates gs).
Proof. intros H E. apply filter_In. split; [now apply In_tree|now rewrite E]. Qed.
Lemma well_posedb_ok w dst gs : well_posedb w dst gs = true -> well_posed w dst gs.
Proof.
  unfold well_posedb. intros H. apply andb_prop in H as [H H3]. apply andb_prop in H as [H1 H2]. rewrite forallb_forall in H2, H3. split; [now apply sets_nob_ok|]. split.
  - intros k (e1 & O1 & A1 & N1) (e2 & O2 & A2 & N2). specialize (H2 _ (In_creates _ _ O1 A1)). rewrite (name_of_ok _ _ _ _ N1) in H2.
    rewrite forallb_forall in H2. specialize (H2 _ (In_deletes _ _ O2 A2)). rewrite (name_of_ok _ _ _ _ N2), key_is_refl in H2. discriminate.
  - intros e k O A N. specialize (H3 _ (In_tree _ _ O)). rewrite A, (name_of_ok _ _ _ _ N) in H3. apply andb_prop in H3 as [H3 H4]. rewrite forallb_forall in H4.
    split; [destruct (lookup w dst (fst k) (snd k)); [discriminate|discriminate]|].
    intros [(e2 & O2 & A2 & N2)|(kd & r & o & (e2 & O2 & A2 & N2) & L & HO & SK & _)]; specialize (H4 _ (In_deletes _ _ O2 A2)); apply andb_prop in H4 as [H4 H5].
    + rewrite (name_of_ok _ _ _ _ N2), key_is_refl in H4. discriminate.
    + assert (D : dst_obj w dst e2 o) by (exists kd, r; auto). rewrite (obj_of_ok _ _ _ _ D) in H5. unfold skips_children in SK. rewrite SK in H5. discriminate.
Qed.
(** no deleted object has one of these flags *)
Definition plain_deletesb (w : world) (dst : aid) (gs : dict (dict elem)) (bits : list N) : bool :=
  forallb (fun e => match obj_of w dst e with Some o => forallb (fun b => negb (N.testbit (o_flags o) b)) bits | None => true end) (deletes gs).
Lemma plain_deletesb_ok w dst gs bits : plain_deletesb w dst gs bits = true ->
  forall e o, occurs e gs -> e_action e = Some ADelete -> dst_obj w dst e o -> forall b, In b bits -> N.testbit (o_flags o) b <> true.
Proof.
  intros H e o O A D b I. unfold plain_deletesb in H. rewrite forallb_forall in H. specialize (H _ (In_deletes _ _ O A)). rewrite (obj_of_ok _ _ _ _ D) in H.
  rewrite forallb_forall in H. specialize (H b I). intros E. rewrite E in H. discriminate.
Qed.

Lemma d0_posed : well_posed w0 1 (d_groups d0).
Proof. apply well_posedb_ok. vm_compute. reflexivity. Qed.
Lemma default_succeed : hooks_succeed default_hooks.
Proof. intros w hc. split; reflexivity. Qed.
