(** * RefuseFacts: what loading records comes to. *)
From Verif Require Export RefuseSpec RowFacts.

Lemma loadable_nil cs : loadable cs [].
Proof. intros [|y l] x m E; discriminate. Qed.
Lemma loadable_snoc cs l x : loadable cs l -> acceptable cs l x -> loadable cs (l ++ [x]).
Proof.
  intros LO AC l' x' m E. destruct m as [|z m] using rev_ind.
  - apply app_inj_tail in E as (-> & ->). exact AC.
  - clear IHm. assert (E' : l ++ [x] = (l' ++ x' :: m) ++ [z]) by (rewrite E, <- app_assoc; reflexivity). apply app_inj_tail in E' as (-> & ->). apply (LO l' x' m eq_refl).
Qed.
Lemma loadable_prefix cs l m : loadable cs (l ++ m) -> loadable cs l.
Proof. intros LO l' x m' ->. apply (LO l' x (m' ++ m)). now rewrite <- app_assoc. Qed.
Lemma key_dec (a b : string * string) : {a = b} + {a <> b}.
Proof. decide equality; apply string_dec. Qed.
Lemma inst_fails c kw f : In (f, None) (c_fields c) -> dget kw f = None -> instantiate c kw [] None None = Err ExnValidationError.
Proof.
  intros I N. unfold instantiate. match goal with |- rbind (rmapM ?g ?l) ?k = _ => assert (E : rmapM g l = Err ExnValidationError) end; [|now rewrite E].
  induction (c_fields c) as [|[g dv] l IH]; [destruct I|]. cbn [rmapM fst snd]. destruct I as [E|I].
  - injection E as -> ->. now rewrite N.
  - specialize (IH I). destruct (dget kw g) as [v|]; [unfold rbind; now rewrite IH|]. destruct dv as [v|]; [unfold rbind; now rewrite IH|reflexivity].
Qed.
Lemma required_dec c x : required_given c x \/ exists f, In (f, None) (c_fields c) /\ dget (r_kw x) f = None.
Proof.
  unfold required_given. induction (c_fields c) as [|[g dv] l [IH|(f & I & N)]]; [left; intros f []| |right; exists f; split; [now right|exact N]].
  destruct dv as [v|].
  - left. intros f [E|I]; [discriminate|now apply IH].
  - destruct (dget (r_kw x) g) as [v|] eqn:G; [left|right; exists g; split; [now left|exact G]]. intros f [E|I]; [injection E as ->; congruence|now apply IH].
Qed.
Lemma parent_class cs l p c c' : parent_in cs l p c -> parent_in cs l p c' -> c = c'.
Proof. intros (y & _ & E & D) (y' & _ & E' & D'). assert (T : r_type y = r_type y') by (unfold row_key in *; congruence). rewrite T in D. congruence. Qed.
Lemma acceptable_or cs l x : loadable cs l -> acceptable cs l x \/ exists e k, refused cs l x e k.
Proof.
  intros LO. destruct (dget cs (r_type x)) as [c|] eqn:D; [|right; exists ExnAttributeError, l; now apply rf_class].
  destruct (required_dec c x) as [RQ|(f & I & N)]; [|right; exists ExnValidationError, l; eapply rf_required; eauto].
  destruct (in_dec key_dec (row_key cs x) (map (row_key cs) l)) as [I|NI]; [right; exists ObjectAlreadyExists, l; eapply rf_twice; eauto|].
  destruct (r_parent x) as [p|] eqn:P; [|left; split; [eauto|]; split; [exact NI|intros p E; congruence]].
  destruct (in_dec key_dec p (map (row_key cs) l)) as [I|NP]; [|right; eexists; eexists; eapply rf_orphan; eauto].
  apply in_map_iff in I as (y & E & I). pose proof I as J. apply in_split in J as (l1 & l2 & E2). destruct (LO l1 y l2 E2) as ((c' & D' & _) & _).
  assert (PI : parent_in cs l p c') by (exists y; auto). destruct (in_dec string_dec (r_type x) (map fst (c_children c'))) as [T|T].
  - left. split; [eauto|]. split; [exact NI|]. intros p' E'. assert (p' = p) by congruence. subst p'. eauto.
  - right. eexists. eexists. eapply rf_type; eauto.
Qed.
Lemma refused_not cs l x e k : refused cs l x e k -> ~ acceptable cs l x.
Proof.
  intros R ((c0 & D0 & RQ) & NI & PA). destruct R as [D|c f D I N|c D _ I|c p D _ _ P NP|c p c' D _ _ P PI NT].
  - congruence.
  - assert (c = c0) by congruence. subst c. now apply (RQ f I).
  - contradiction.
  - destruct (PA p P) as (c2 & (y & I & E & _) & _). apply NP. apply in_map_iff. eauto.
  - destruct (PA p P) as (c2 & PI2 & T). rewrite (parent_class _ _ _ _ _ PI2 PI) in T. contradiction.
Qed.
(** the exception does not depend on anything else *)
Lemma refused_fun cs l x e k e' k' : refused cs l x e k -> refused cs l x e' k' -> e = e' /\ k = k'.
Proof.
  intros R R'. destruct R as [D|c f D I N|c D RQ I|c p D RQ NI P NP|c p c' D RQ NI P PI NT];
    destruct R' as [D2|c2 f2 D2 I2 N2|c2 D2 RQ2 I2|c2 p2 D2 RQ2 NI2 P2 NP2|c2 p2 c2' D2 RQ2 NI2 P2 PI2 NT2]; try (split; reflexivity); exfalso;
    try congruence; try contradiction; try (assert (c2 = c) by congruence; subst c2);
    try (now apply (RQ2 f I)); try (now apply (RQ f2 I2)); assert (p2 = p) by congruence; subst p2.
  - destruct PI2 as (y & Iy & E & _). apply NP. apply in_map_iff. eauto.
  - destruct PI as (y & Iy & E & _). apply NP2. apply in_map_iff. eauto.
Qed.

Lemma bucket_touched d m t : bucket (touch d m) t = bucket d t.
Proof.
  unfold bucket, touch. destruct (dget d m) eqn:E; [reflexivity|]. destruct (string_dec t m) as [->|N]; [now rewrite dget_dset_eq, E|rewrite dget_dset_neq; congruence].
Qed.

Section Refuse.
  Variables (w : world) (a : aid) (ad : adapter).
  Hypothesis AD : nth_error (w_ads w) a = Some ad.
  Notation cs := (ad_classes ad).
  Notation K := (row_key cs).
  Notation n0 := (length (w_heap w)).
  Notation inv := (RowFacts.inv w a ad).
  Hypothesis CS : classes_sound cs.

  Lemma inv_filled l w' : inv l w' -> filled w' a cs l.
  Proof.
    intros (d & EA & _ & _ & _ & _ & _ & _ & IJ & IB). destruct (here w a ad AD d w' EA) as (HA & HS). assert (LK : forall t u, lookup w' a t u = dget (bucket d t) u) by (intros t u; unfold lookup; now rewrite HA, HS).
    split.
    - intros x I. apply In_nth_error in I as (j & J). destruct (IJ j x J) as (B & o & H & A & M). exists (n0 + j), o. now rewrite LK.
    - intros k N. rewrite LK in N. destruct (dget (bucket d (fst k)) (snd k)) as [r|] eqn:B; [|congruence]. destruct (IB _ _ _ B) as (j & y & J & E). exists y.
      split; [eapply nth_error_In; eauto|]. now rewrite E, <- surjective_pairing.
  Qed.
  Lemma filled_more l w' w'' : filled w' a cs l -> (forall t u, lookup w'' a t u = lookup w' a t u) ->
    (forall r o, nth_error (w_heap w') r = Some o -> nth_error (w_heap w'') r = Some o) -> filled w'' a cs l.
  Proof.
    intros (F1 & F2) LK HH. split.
    - intros x I. destruct (F1 x I) as (r & o & L & H & R). exists r, o. rewrite LK. auto.
    - intros k N. rewrite LK in N. auto.
  Qed.
  Lemma good_all l : loadable cs l -> forall x, In x l -> good_row cs x.
  Proof.
    intros LO x I. apply in_split in I as (l1 & l2 & E). destruct (LO l1 x l2 E) as ((c & D & RQ) & _). destruct (CS _ _ D) as (MN & CR). exists c. auto.
  Qed.
  Lemma keys_all l : loadable cs l -> NoDup (map K l).
  Proof.
    induction l as [|x l IH] using rev_ind; intros LO; [constructor|]. rewrite map_app. destruct (LO l x [] eq_refl) as (_ & NI & _).
    apply NoDup_app_intro; [apply IH; exact (loadable_prefix _ _ _ LO)|constructor; [intros []|constructor]|]. intros k I [<-|[]]. contradiction.
  Qed.
  Lemma step_ok l x w' : loadable cs (l ++ [x]) -> inv l w' -> exists w'', load_row a x w' = (w'', Ok tt) /\ inv (l ++ [x]) w''.
  Proof.
    intros LO IV. apply (row_step w a ad (l ++ [x]) AD (good_all _ LO) (keys_all _ LO)) with (m := []); [|reflexivity|exact IV].
    intros l1 y m E. destruct (LO l1 y m E) as (_ & _ & PA). destruct (r_parent y) as [p|]; [|exact I]. destruct (PA p eq_refl) as (c & (z & Iz & Kz & D) & T). eauto 8.
  Qed.

  (** the object is added first, then it is given to its parent *)
  Definition to_parent (x : row) (r : ref) : M world unit :=
    match r_parent x with
    | None => ret tt
    | Some p => pr <- st_get a (MName (fst p)) (IdStr (snd p)) ;; parent <- hget pr ;; child <- hget r ;; parent' <- lift (add_child parent child) ;; hset pr parent'
    end.
  Lemma load_row_parts x w' w2 : load_row a (mkRow (r_type x) (r_kw x) None) w' = (w2, Ok tt) -> load_row a x w' = to_parent x (length (w_heap w')) w2.
  Proof.
    unfold load_row, bind, get_adapter. cbn [r_type r_kw r_parent]. destruct (nth_error (w_ads w') a) as [ad'|]; [|discriminate].
    destruct (dget (ad_classes ad') (r_type x)) as [c|]; [|discriminate]. unfold lift. destruct (instantiate c (r_kw x) [] None None) as [o|e]; [|discriminate]. unfold halloc.
    destruct (st_add a (length (w_heap w')) (set_heap w' (w_heap w' ++ [o]))) as [w3 [u|e]]; [|discriminate]. unfold ret. intros E. injection E as <-. reflexivity.
  Qed.
  Lemma row_key_alone x : K (mkRow (r_type x) (r_kw x) None) = K x.
  Proof. reflexivity. Qed.
  Lemma alone_ok l x c : dget cs (r_type x) = Some c -> required_given c x -> ~ In (K x) (map K l) -> acceptable cs l (mkRow (r_type x) (r_kw x) None).
  Proof. intros D RQ NI. split; [exists c; auto|]. split; [exact NI|]. intros p E. discriminate. Qed.

  Lemma step_refused l x e k w' : loadable cs l -> inv l w' -> refused cs l x e k -> r_parent x <> Some (K x) ->
    exists w'', load_row a x w' = (w'', Err e) /\ filled w'' a cs k.
  Proof.
    intros LO IV RF NS. pose proof IV as (d & EA & ERD & ET & EL & EH & N1 & N2 & IJ & IB). destruct (here w a ad AD d w' EA) as (HA & HS).
    assert (CA : ad_classes (set_ad_store ad (SLocal d)) = cs) by reflexivity.
    destruct RF as [D|c f D I N|c D RQ I|c p D RQ NI P NP|c p c' D RQ NI P PI NT].
    - exists w'. split; [|now apply inv_filled]. unfold load_row, bind, get_adapter. now rewrite HA, CA, D.
    - exists w'. split; [|now apply inv_filled]. unfold load_row, bind, get_adapter. rewrite HA, CA, D. unfold lift. now rewrite (inst_fails c (r_kw x) f I N).
    - destruct (CS _ _ D) as (MN & CR). destruct (inst_vals c (r_kw x) RQ (cr_fields c CR)) as (vals & EI & KV & VV).
      set (o0 := mkObj c vals (map (fun f => (f, [])) (c_kid_fields c)) (c_flags c) None StSuccess "") in *.
      assert (GU : get_unique_id o0 = Ok (snd (K x))).
      { assert (GR : good_row cs (mkRow (r_type x) (r_kw x) None)) by (exists c; auto). apply (made_uid cs [] (mkRow (r_type x) (r_kw x) None) o0 GR).
        exists c. split; [exact D|]. do 3 (split; [reflexivity|]). split; [exact KV|]. split; [exact VV|]. intros t f J. cbn [o0 o_kids].
        assert (JF : In f (c_kid_fields c)) by (apply (cr_kids c CR); apply in_map_iff; exists (t, f); auto).
        clear - JF. induction (c_kid_fields c) as [|g gs IH]; [destruct JF|]. cbn [map dget]. destruct (String.eqb_spec f g); [reflexivity|]. apply IH. destruct JF; [congruence|assumption]. }
      set (r := length (w_heap w')). set (w1 := set_heap w' (w_heap w' ++ [o0])).
      assert (H1 : nth_error (w_heap w1) r = Some o0) by (unfold w1, r; cbn [w_heap set_heap]; rewrite nth_error_app2, Nat.sub_diag by lia; reflexivity).
      apply in_map_iff in I as (y & KY & Iy). apply In_nth_error in Iy as (j & J). destruct (IJ j y J) as (B & oy & Hy & _).
      exists w1. split.
      + unfold load_row, bind, get_adapter. rewrite HA, CA, D. unfold lift. rewrite EI. unfold halloc. fold w1. fold r.
        rewrite (st_add_local a r w1 (set_ad_store ad (SLocal d)) d o0 (snd (K x)) (conj HA HS) H1 GU).
        assert (GT : get_type o0 = fst (K x)) by exact MN. rewrite GT, <- KY, B. destruct (Nat.eqb_spec (n0 + j) r) as [E|_]; [|reflexivity].
        exfalso. assert (nth_error (w_heap w') r <> None) by (rewrite <- E; congruence). apply nth_error_Some in H. unfold r in H. lia.
      + apply (filled_more l w' w1 (inv_filled l w' IV)); [reflexivity|]. intros r' o' H'. unfold w1. cbn [w_heap set_heap]. rewrite nth_error_app1; [exact H'|]. apply nth_error_Some. congruence.
    - set (x0 := mkRow (r_type x) (r_kw x) None). pose proof (loadable_snoc cs l x0 LO (alone_ok l x c D RQ NI)) as LO'.
      destruct (step_ok l x0 w' LO' IV) as (w2 & E2 & IV2). rewrite (load_row_parts x w' w2 E2). unfold to_parent. rewrite P.
      pose proof IV2 as (d2 & EA2 & _ & _ & _ & _ & _ & _ & IJ2 & IB2). pose proof (here w a ad AD d2 w2 EA2) as HL2. destruct HL2 as (HA2 & HS2).
      assert (B : dget (bucket d2 (fst p)) (snd p) = None).
      { destruct (dget (bucket d2 (fst p)) (snd p)) as [r|] eqn:G; [|reflexivity]. destruct (IB2 _ _ _ G) as (j & y & J & E). rewrite <- surjective_pairing in E.
        apply nth_error_In in J. apply in_app_iff in J as [J|[<-|[]]]; [elim NP; apply in_map_iff; eauto|]. elim NS. rewrite P. f_equal. rewrite <- E. reflexivity. }
      exists (upd_store w2 a (SLocal (touch d2 (fst p)))). split.
      + unfold bind at 1. rewrite (st_get_local a (MName (fst p)) (IdStr (snd p)) w2 _ d2 (snd p) (conj HA2 HS2)) by reflexivity. cbn [spec_name]. now rewrite B.
      + apply (filled_more (l ++ [x0]) w2 _ (inv_filled _ _ IV2)); [|intros r' o' H'; unfold upd_store; now rewrite HA2].
        intros t u. destruct (is_local_upd w2 a _ d2 (touch d2 (fst p)) (conj HA2 HS2)) as (HA3 & HS3). unfold lookup. rewrite HA3, HS3, HA2, HS2. now rewrite bucket_touched.
    - set (x0 := mkRow (r_type x) (r_kw x) None). pose proof (loadable_snoc cs l x0 LO (alone_ok l x c D RQ NI)) as LO'.
      destruct (step_ok l x0 w' LO' IV) as (w2 & E2 & IV2). rewrite (load_row_parts x w' w2 E2). unfold to_parent. rewrite P.
      pose proof IV2 as (d2 & EA2 & _ & _ & EL2 & _ & _ & _ & IJ2 & IB2). pose proof (here w a ad AD d2 w2 EA2) as HL2. destruct HL2 as (HA2 & HS2).
      destruct PI as (y & Iy & KY & Dy). apply In_nth_error in Iy as (i & Iy). assert (LI : i < length l) by (apply nth_error_Some; congruence).
      destruct (IJ2 i y) as (B & oy & Hy & Ay & My); [now rewrite nth_error_app1|]. destruct (IJ2 (length l) x0) as (B0 & o0 & H0 & A0 & M0); [rewrite nth_error_app2, Nat.sub_diag by lia; reflexivity|].
      rewrite KY in B. exists w2. split; [|now apply inv_filled].
      unfold bind at 1. rewrite (st_get_local a (MName (fst p)) (IdStr (snd p)) w2 _ d2 (snd p) (conj HA2 HS2)) by reflexivity. cbn [spec_name]. rewrite B.
      rewrite (upd_known w2 a _ d2 (fst p) (snd p) _ (conj HA2 HS2) B). unfold bind. rewrite (hget_eq _ _ _ Hy).
      replace (length (w_heap w')) with (n0 + length l) by (symmetry; exact EL). rewrite (hget_eq _ _ _ H0). unfold lift.
      destruct My as (cy & Dy' & MC & _). destruct M0 as (c0 & D0 & MC0 & _). cbn [x0 r_type] in D0. assert (MC1 : o_cls oy = c') by congruence. assert (MC2 : o_cls o0 = c) by congruence. destruct (CS _ _ D) as (MN & _).
      unfold add_child. rewrite MC1. assert (GT : get_type o0 = r_type x) by (unfold get_type; rewrite MC2; exact MN). rewrite GT.
      destruct (dget (c_children c') (r_type x)) as [f|] eqn:G; [|reflexivity]. elim NT. apply dget_Some_In in G. apply in_map_iff. exists (r_type x, f). auto.
  Qed.

  Lemma load_cases m : forall l w', loadable cs l -> inv l w' -> (forall x, In x m -> r_parent x <> Some (K x)) ->
    (loadable cs (l ++ m) /\ exists w'', load a m w' = (w'', Ok tt) /\ inv (l ++ m) w'') \/
    (exists l' x m' e k w'', m = l' ++ x :: m' /\ loadable cs (l ++ l') /\ refused cs (l ++ l') x e k /\ load a m w' = (w'', Err e) /\ filled w'' a cs k).
  Proof.
    induction m as [|x m IH]; intros l w' LO IV NS.
    - left. rewrite app_nil_r. split; [exact LO|]. exists w'. auto.
    - destruct (acceptable_or cs l x LO) as [AC|(e & k & RF)].
      + pose proof (loadable_snoc cs l x LO AC) as LO'. destruct (step_ok l x w' LO' IV) as (w1 & E1 & IV1).
        assert (EQ : load a (x :: m) w' = load a m w1) by (cbn [load]; unfold bind; now rewrite E1).
        destruct (IH (l ++ [x]) w1 LO' IV1) as [(L2 & w2 & E2 & I2)|(l' & y & m' & e & k & w2 & -> & L2 & RF & E2 & F2)]; [intros y I; apply NS; now right| |].
        * left. rewrite <- app_assoc in L2, I2. split; [exact L2|]. exists w2. rewrite EQ. auto.
        * right. rewrite <- app_assoc in L2, RF. exists (x :: l'), y, m', e, k, w2. rewrite EQ. auto 8.
      + destruct (step_refused l x e k w' LO IV RF) as (w1 & E1 & F1); [apply NS; now left|]. right. exists [], x, m, e, k, w1. rewrite app_nil_r.
        split; [reflexivity|]. split; [exact LO|]. split; [exact RF|]. split; [cbn [load]; unfold bind; now rewrite E1|exact F1].
  Qed.
End Refuse.
Lemma load_total w a ad rows : nth_error (w_ads w) a = Some ad -> ad_store ad = SLocal [] -> classes_sound (ad_classes ad) ->
  (forall x, In x rows -> r_parent x <> Some (row_key (ad_classes ad) x)) ->
  (loadable (ad_classes ad) rows /\ exists w', load a rows w = (w', Ok tt) /\ filled w' a (ad_classes ad) rows) \/
  (exists l x m e k w', rows = l ++ x :: m /\ loadable (ad_classes ad) l /\ refused (ad_classes ad) l x e k /\ load a rows w = (w', Err e) /\ filled w' a (ad_classes ad) k).
Proof.
  intros AD ES CS NS. destruct (load_cases w a ad AD CS rows [] w (loadable_nil _)) as [(LO & w' & E & IV)|(l & x & m & e & k & w' & H)]; [now apply inv_start|exact NS| |].
  - left. split; [exact LO|]. exists w'. split; [exact E|]. exact (inv_filled w a ad AD rows w' IV).
  - right. exists l, x, m, e, k, w'. exact H.
Qed.
Lemma load_app a l m w : load a (l ++ m) w = match load a l w with (w', Ok _) => load a m w' | (w', Err e) => (w', Err e) end.
Proof.
  revert w. induction l as [|x l IH]; intros w; [reflexivity|]. cbn [app load]. unfold bind at 1 2. destruct (load_row a x w) as [w' [u|e]]; [apply IH|reflexivity].
Qed.
Lemma load_refused w a ad l x m e k : nth_error (w_ads w) a = Some ad -> ad_store ad = SLocal [] -> classes_sound (ad_classes ad) ->
  (forall y, In y (l ++ [x]) -> r_parent y <> Some (row_key (ad_classes ad) y)) ->
  loadable (ad_classes ad) l -> refused (ad_classes ad) l x e k ->
  exists w', load a (l ++ x :: m) w = (w', Err e) /\ filled w' a (ad_classes ad) k.
Proof.
  intros AD ES CS NS LO RF. rewrite load_app.
  destruct (load_cases w a ad AD CS l [] w (loadable_nil _)) as [(_ & w' & E & IV)|(l' & y & m' & e' & k' & w' & -> & _ & RF' & _)];
    [now apply inv_start|intros y I; apply NS, in_app_iff; now left| |].
  - rewrite E. cbn [app] in IV. destruct (step_refused w a ad AD CS l x e k w' LO IV RF) as (w2 & E2 & F2); [apply NS, in_app_iff; right; now left|].
    exists w2. split; [cbn [load]; unfold bind; now rewrite E2|exact F2].
  - elim (refused_not _ _ _ _ _ RF'). exact (LO l' y m' eq_refl).
Qed.
(** the records of C75 are loadable *)
Lemma dataset_loadable cs tops rows : dataset cs tops rows -> loadable cs rows.
Proof.
  intros DS l x m E. destruct (da_class _ _ _ DS x) as (c & D & _ & _ & RQ); [subst rows; apply in_app_iff; right; now left|]. split; [exists c; auto|]. split.
  - pose proof (da_keys _ _ _ DS) as ND. rewrite E, map_app in ND. cbn [map] in ND. apply NoDup_remove_2 in ND. intros I. apply ND, in_app_iff. now left.
  - intros p P. pose proof (da_parent _ _ _ DS l x m E) as H. rewrite P in H. destruct H as (_ & y & c' & Iy & Ky & Dy & T). exists c'. split; [exists y; auto|exact T].
Qed.
