(** * ShelfFacts: filling a RedisStore from records. *)
From Verif Require Export ShelfSpec RowEnd RedisFacts.

Definition row_by (upd : bool) (a : aid) (x : row) : M world unit :=
  ad <- get_adapter a ;;
  match dget (ad_classes ad) (r_type x) with
  | None => raise ExnAttributeError
  | Some c =>
      o <- lift (instantiate c (r_kw x) [] None None) ;;
      r <- halloc o ;;
      st_add a r ;;;
      match r_parent x with
      | None => ret tt
      | Some p =>
          pr <- st_get a (MName (fst p)) (IdStr (snd p)) ;;
          parent <- hget pr ;;
          child <- hget r ;;
          parent' <- lift (add_child parent child) ;;
          hset pr parent' ;;;
          (if upd then st_update a pr else ret tt)
      end
  end.
Fixpoint load_by (upd : bool) (a : aid) (rows : list row) : M world unit :=
  match rows with
  | [] => ret tt
  | x :: rows' => row_by upd a x ;;; load_by upd a rows'
  end.
Lemma load_by_true a rows : forall w, load_by true a rows w = load_keeping a rows w.
Proof. induction rows as [|x rows IH]; intros w; [reflexivity|]. cbn [load_by load_keeping]. unfold bind at 1 2. change (row_by true a x w) with (keep_row a x w). destruct (keep_row a x w) as [w1 [[]|]]; [apply IH|reflexivity]. Qed.
Lemma row_by_false a x w : row_by false a x w = load_row a x w.
Proof.
  unfold row_by, load_row, bind. destruct (get_adapter a w) as [w1 [ad|]]; [|reflexivity]. destruct (dget (ad_classes ad) (r_type x)); [|reflexivity].
  destruct (lift _ w1) as [w2 [o|]]; [|reflexivity]. destruct (halloc o w2) as [w3 [r|]]; [|reflexivity]. destruct (st_add a r w3) as [w4 [[]|]]; [|reflexivity].
  destruct (r_parent x) as [p|]; [|reflexivity]. destruct (st_get _ _ _ w4) as [w5 [pr|]]; [|reflexivity]. destruct (hget pr w5) as [w6 [po|]]; [|reflexivity].
  destruct (hget r w6) as [w7 [co|]]; [|reflexivity]. destruct (lift _ w7) as [w8 [po'|]]; [|reflexivity]. destruct (hset pr po' w8) as [w9 [[]|]]; reflexivity.
Qed.
Lemma load_by_false a rows : forall w, load_by false a rows w = load a rows w.
Proof. induction rows as [|x rows IH]; intros w; [reflexivity|]. cbn [load_by load]. unfold bind at 1 2. rewrite row_by_false. destruct (load_row a x w) as [w1 [[]|]]; [apply IH|reflexivity]. Qed.

Lemma made_adapter cs rows x o b : made_from cs rows x o -> made_from cs rows x (set_o_adapter o b).
Proof. intros (c & H). exists c. exact H. Qed.
Lemma set_adapter_none o : o_adapter o = None -> set_o_adapter o None = o.
Proof. destruct o. cbn. now intros ->. Qed.

Section Load.
  Variables (upd : bool) (w : world) (a : aid) (ad : adapter) (i : string) (rows : list row).
  Hypothesis FS : fresh_store w a ad i rows.
  Notation cs := (ad_classes ad).
  Notation K := (row_key cs).
  Notation n0 := (length (w_heap w)).
  Notation rk := (fun x => redis_key i (fst (K x)) (snd (K x))).
  Hypothesis GOOD : forall x, In x rows -> good_row cs x.
  Hypothesis KEYS : NoDup (map K rows).
  Hypothesis PARENT : forall l x m, rows = l ++ x :: m ->
    match r_parent x with
    | None => True
    | Some p => exists y c, In y l /\ K y = p /\ dget cs (r_type y) = Some c /\ In (r_type x) (map fst (c_children c))
    end.
  Definition kr (l : list row) : list row := if upd then l else [].

  Definition sinv (l : list row) (w' : world) : Prop :=
    w_ads w' = w_ads w /\ w_trace w' = w_trace w /\ n0 <= length (w_heap w') /\ (forall r, r < n0 -> nth_error (w_heap w') r = nth_error (w_heap w) r) /\
    shelved w i cs l (kr l) w'.

  Lemma rk_inj x y : In x rows -> In y rows -> rk x = rk y -> K x = K y.
  Proof.
    intros I J E. apply key_inj in E as (_ & E1 & E2); try apply FS; auto. now apply injective_projections.
  Qed.

  Lemma srow_step l x m w' : rows = l ++ x :: m -> sinv l w' -> exists w'', row_by upd a x w' = (w'', Ok tt) /\ sinv (l ++ [x]) w''.
  Proof.
    intros ER (EA & ET & EL & EH & IS & IO & ND). assert (IX : In x rows) by (rewrite ER; apply in_app_iff; right; now left).
    assert (IL : forall y, In y l -> In y rows) by (intros y J; rewrite ER; apply in_app_iff; now left).
    assert (NK : ~ In (K x) (map K l)).
    { pose proof KEYS as N. rewrite ER, map_app in N. cbn [map] in N. apply NoDup_remove_2 in N. intros I. apply N. apply in_app_iff. now left. }
    assert (NR : forall y, In y l -> rk y <> rk x).
    { intros y J E. apply NK. rewrite <- (rk_inj y x (IL y J) IX E). now apply in_map. }
    destruct (GOOD x IX) as (c & D & MN & CR & RQ). assert (HA : nth_error (w_ads w') a = Some ad) by (rewrite EA; apply FS).
    destruct (RowFacts.inst_vals c (r_kw x) RQ (cr_fields c CR)) as (vals & EI & KV & VV).
    set (o0 := mkObj c vals (map (fun f => (f, [])) (c_kid_fields c)) (c_flags c) None StSuccess "") in *.
    assert (NC : forall y, In y l -> r_parent y <> Some (K x)).
    { intros y I. apply in_split in I as (l1 & l2 & ->). pose proof (PARENT l1 y (l2 ++ x :: m)) as P.
      rewrite <- app_assoc in ER. specialize (P ER). intros E. rewrite E in P. destruct P as (z & cz & Iz & Kz & _). apply NK. rewrite map_app. apply in_app_iff. left. apply in_map_iff. eauto. }
    assert (NS : r_parent x <> Some (K x)).
    { pose proof (PARENT l x m ER) as P. intros E. rewrite E in P. destruct P as (z & cz & Iz & Kz & _). apply NK. apply in_map_iff. eauto. }
    assert (KF : forall t f, In (t, f) (c_children c) -> dget (map (fun g : string => (g, @nil string)) (c_kid_fields c)) f = Some []).
    { intros t f I. assert (J : In f (c_kid_fields c)) by (apply (cr_kids c CR); apply in_map_iff; exists (t, f); auto).
      clear - J. induction (c_kid_fields c) as [|g gs IH]; [destruct J|]. cbn [map dget]. destruct (String.eqb_spec f g); [reflexivity|]. apply IH. destruct J; [congruence|assumption]. }
    assert (M1 : made_from cs (kr (l ++ [x])) x o0).
    { exists c. split; [exact D|]. do 3 (split; [reflexivity|]). split; [exact KV|]. split; [exact VV|]. intros t f I. cbn [o0 o_kids]. rewrite (KF t f I). f_equal.
      symmetry. destruct (row_kids cs (kr (l ++ [x])) (K x) t) as [|u us] eqn:E; [reflexivity|]. assert (J : In u (row_kids cs (kr (l ++ [x])) (K x) t)) by (rewrite E; now left).
      apply row_kids_In in J as (y & J & P & _). unfold kr in J. destruct upd; [|destruct J]. apply in_app_iff in J as [J|[<-|[]]]; [elim (NC y J); exact P|elim NS; exact P]. }
    assert (GU : get_unique_id o0 = Ok (snd (K x))) by (apply (made_uid cs (kr (l ++ [x])) x); [exists c; auto|exact M1]).
    assert (GT : get_type o0 = fst (K x)) by exact MN.
    assert (AB : dget (w_redis w') (rk x) = None).
    { rewrite IO by (intros y J; apply not_eq_sym; now apply NR). unfold redis_key, store_label. rewrite append_assoc. apply (fs_none _ _ _ _ _ FS). }
    set (r := length (w_heap w')). set (w1 := set_heap w' (w_heap w' ++ [o0])).
    assert (H1 : nth_error (w_heap w1) r = Some o0).
    { unfold w1, r. cbn [w_heap set_heap]. rewrite nth_error_app2, Nat.sub_diag by lia. reflexivity. }
    set (w2 := set_redis w1 (dset (w_redis w') (rk x) o0)).
    assert (SA : st_add a r w1 = (w2, Ok tt)).
    { unfold st_add, bind. rewrite (hget_eq _ _ _ H1). unfold lift. rewrite GU. unfold get_adapter. cbn [w_ads w1 set_heap]. rewrite HA, (fs_store _ _ _ _ _ FS). unfold get_state.
      rewrite GT. change (w_redis w1) with (w_redis w'). rewrite AB. reflexivity. }
    assert (LR : row_by upd a x w' = (match r_parent x with
      | None => ret tt
      | Some p => pr <- st_get a (MName (fst p)) (IdStr (snd p)) ;; parent <- hget pr ;; child <- hget r ;; parent' <- lift (add_child parent child) ;; hset pr parent' ;;;
          (if upd then st_update a pr else ret tt)
      end) w2).
    { unfold row_by, bind, get_adapter. rewrite HA, D. unfold lift at 1. rewrite EI. unfold halloc. fold w1. fold r. rewrite SA. reflexivity. }
    rewrite LR. clear LR.
    assert (A2 : w_ads w2 = w_ads w) by exact EA. assert (T2 : w_trace w2 = w_trace w) by exact ET.
    assert (L2 : n0 <= length (w_heap w2)) by (unfold w2, w1; cbn [w_heap set_redis set_heap]; rewrite app_length; lia).
    assert (H2 : forall q, q < n0 -> nth_error (w_heap w2) q = nth_error (w_heap w) q) by (intros q Q; unfold w2, w1; cbn [w_heap set_redis set_heap]; rewrite nth_error_app1 by lia; now apply EH).
    assert (N2 : NoDup (dkeys (w_redis w2))) by (unfold w2; cbn [w_redis set_redis]; now apply NoDup_dset).
    assert (X2 : on_server w2 i (fst (K x)) (snd (K x)) = Some o0) by (unfold on_server, w2; cbn [w_redis set_redis]; apply dget_dset_eq).
    assert (Y2 : forall k, k <> rk x -> dget (w_redis w2) k = dget (w_redis w') k).
    { intros k N. unfold w2. cbn [w_redis set_redis]. apply dget_dset_neq. congruence. }
    assert (O2 : forall k, (forall y, In y (l ++ [x]) -> k <> rk y) -> dget (w_redis w2) k = dget (w_redis w) k).
    { intros k N. rewrite Y2 by (apply N; apply in_app_iff; right; now left). apply IO. intros y J. apply N. apply in_app_iff. now left. }
    pose proof (PARENT l x m ER) as DP. destruct (r_parent x) as [p|] eqn:EP.
    - destruct DP as (y & cy & Iy & Ky & Dy & Ch). destruct (IS y Iy) as (oy & Sy & Ay & My).
      assert (S2y : dget (w_redis w2) (rk y) = Some oy) by (rewrite Y2 by (now apply NR); exact Sy).
      set (py := set_o_adapter oy (Some a)). set (w3 := set_heap w2 (w_heap w2 ++ [py])). set (q := length (w_heap w2)).
      assert (GP : st_get a (MName (fst p)) (IdStr (snd p)) w2 = (w3, Ok q)).
      { unfold st_get, bind, get_adapter. rewrite A2, (fs_ad _ _ _ _ _ FS). cbn [object_class_and_model fst snd get_uid]. unfold lift. rewrite (fs_store _ _ _ _ _ FS). rewrite <- Ky.
        unfold redis_load. rewrite S2y. reflexivity. }
      assert (H3q : nth_error (w_heap w3) q = Some py) by (unfold w3, q; cbn [w_heap set_heap]; rewrite nth_error_app2, Nat.sub_diag by lia; reflexivity).
      assert (RQq : r < q) by (unfold q, r, w2, w1; cbn [w_heap set_heap set_redis]; rewrite app_length; simpl; lia).
      assert (H3r : nth_error (w_heap w3) r = Some o0) by (unfold w3; cbn [w_heap set_heap]; rewrite nth_error_app1 by exact RQq; exact H1).
      pose proof My as (c' & D' & MC & MF & MS & MV & MW & MK). rewrite Dy in D'. injection D' as <-.
      destruct (GOOD y (IL y Iy)) as (cy' & Dy' & MNy & CRy & RQy). rewrite Dy in Dy'. injection Dy' as <-.
      apply in_map_iff in Ch as ([t f] & Et & Ch). cbn [fst] in Et. subst t.
      set (py' := set_o_kids py (dset (o_kids py) f (row_kids cs (kr l) (K y) (r_type x) ++ [snd (K x)]))).
      assert (AC : add_child py o0 = Ok py').
      { apply add_child_ok.
        - cbn [py set_o_adapter o_cls]. rewrite MC. assert (T : get_type o0 = r_type x) by exact MN. rewrite T. apply In_dget; [exact (cr_types cy CRy)|exact Ch].
        - cbn [py set_o_adapter o_kids]. now apply MK.
        - exact GU.
        - intros J. apply row_kids_In in J as (z & Jz & _ & Ez). apply NK. apply in_map_iff. exists z. split; [rewrite Ez; symmetry; apply surjective_pairing|].
          unfold kr in Jz. destruct upd; [exact Jz|destruct Jz]. }
      set (w4 := set_heap w3 (list_set (w_heap w3) q py')).
      assert (E4 : (pr <- st_get a (MName (fst p)) (IdStr (snd p)) ;; parent <- hget pr ;; child <- hget r ;; parent' <- lift (add_child parent child) ;; hset pr parent' ;;;
          (if upd then st_update a pr else ret tt)) w2 = (if upd then st_update a q else ret tt) w4).
      { unfold bind. rewrite GP. rewrite (hget_eq _ _ _ H3q), (hget_eq _ _ _ H3r). unfold lift. rewrite AC. reflexivity. }
      rewrite E4. clear E4.
      assert (H4q : nth_error (w_heap w4) q = Some py') by (unfold w4; cbn [w_heap set_heap]; eapply nth_list_set_eq; exact H3q).
      assert (L4 : n0 <= length (w_heap w4)) by (unfold w4, w3; cbn [w_heap set_heap]; rewrite list_set_length, app_length; lia).
      assert (H4 : forall z, z < n0 -> nth_error (w_heap w4) z = nth_error (w_heap w) z).
      { intros z Z. unfold w4, w3. cbn [w_heap set_heap]. rewrite nth_list_set_neq by (unfold q; lia). rewrite nth_error_app1 by lia. now apply H2. }
      destruct upd eqn:EU.
      + assert (GUy : get_unique_id py' = Ok (snd (K y))) by (unfold py', py; rewrite get_unique_id_kids, get_unique_id_adapter; apply (made_uid cs (kr l)); [exact (GOOD y (IL y Iy))|exact My]).
        assert (GTy : get_type py' = fst (K y)) by exact (eq_trans (f_equal c_modelname MC) MNy).
        set (w5 := set_redis w4 (dset (w_redis w2) (rk y) (set_o_adapter py' None))).
        exists w5. split.
        { unfold st_update, bind. rewrite (hget_eq _ _ _ H4q). unfold lift. rewrite GUy. unfold get_adapter. change (w_ads w4) with (w_ads w2). rewrite A2, (fs_ad _ _ _ _ _ FS), (fs_store _ _ _ _ _ FS), GTy. reflexivity. }
        split; [exact A2|]. split; [exact T2|]. split; [exact L4|]. split; [exact H4|]. split; [|split].
        * intros z Jz. destruct (string_dec (rk z) (rk y)) as [E|N].
          { assert (z = y).
            { assert (Jz' : In z rows) by (rewrite ER; apply in_app_iff; apply in_app_iff in Jz as [J|[<-|[]]]; [now left|right; now left]).
              pose proof (rk_inj z y Jz' (IL y Iy) E) as E'. pose proof KEYS as N. apply In_nth_error in Jz' as (j1 & J1). pose proof (IL y Iy) as Jy. apply In_nth_error in Jy as (j2 & J2).
              assert (j1 = j2). { apply (proj1 (NoDup_nth_error (map K rows)) N); [rewrite map_length; apply nth_error_Some; congruence|]. now rewrite (map_nth_error K _ _ J1), (map_nth_error K _ _ J2), E'. }
              congruence. }
            subst z. exists (set_o_adapter py' None). split; [unfold on_server, w5; cbn [w_redis set_redis]; apply dget_dset_eq|]. split; [reflexivity|]. apply made_adapter.
            exists cy. split; [exact Dy|]. split; [exact MC|]. split; [exact MF|]. split; [exact MS|]. split; [exact MV|]. split; [exact MW|].
            intros t g I. cbn [py' py set_o_kids set_o_adapter o_kids]. rewrite dget_dset. unfold kr. rewrite EU, row_kids_snoc.
            assert (PX : is_parent (K y) x = true) by (apply is_parent_ok; now rewrite Ky). rewrite PX. cbn [andb].
            destruct (String.eqb_spec g f) as [->|NG].
            - assert (t = r_type x).
              { pose proof (cr_own cy CRy) as OW. unfold own_fields in OW. clear - OW I Ch. unfold dvals in OW. induction (c_children cy) as [|[t1 f1] cc IH]; [destruct I|].
                inversion OW as [|? ? NI OW']; subst. destruct I as [I|I], Ch as [Ch|Ch]; try congruence; [| |now apply IH].
                - injection I as -> ->. elim NI. apply in_map_iff. exists (r_type x, f). auto.
                - injection Ch as -> ->. elim NI. apply in_map_iff. exists (t, f). auto. }
              subst t. now rewrite String.eqb_refl.
            - rewrite (MK t g I). unfold kr. rewrite EU. destruct (String.eqb_spec (r_type x) t) as [<-|]; [|now rewrite app_nil_r].
              elim NG. pose proof (cr_types cy CRy) as TY. apply (In_dget _ _ _ TY) in I. apply (In_dget _ _ _ TY) in Ch. congruence. }
          { assert (Z5 : dget (w_redis w5) (rk z) = dget (w_redis w2) (rk z)) by (unfold w5; cbn [w_redis set_redis]; apply dget_dset_neq; congruence).
            apply in_app_iff in Jz as [Jz|[<-|[]]].
            - destruct (IS z Jz) as (oz & Sz & Az & Mz). exists oz. split; [unfold on_server; rewrite Z5, Y2 by (now apply NR); exact Sz|]. split; [exact Az|].
              unfold kr in *. rewrite EU in *. apply kept; [|exact Mz]. rewrite EP. intros E. injection E as E. rewrite <- Ky in E. apply N. now rewrite E.
            - exists o0. split; [unfold on_server; rewrite Z5; exact X2|]. split; [reflexivity|exact M1]. }
        * intros k N. unfold w5. cbn [w_redis set_redis]. rewrite dget_dset_neq; [now apply O2|]. apply not_eq_sym. apply N. apply in_app_iff. now left.
        * unfold w5. cbn [w_redis set_redis]. now apply NoDup_dset.
      + exists w4. split; [reflexivity|]. split; [exact A2|]. split; [exact T2|]. split; [exact L4|]. split; [exact H4|]. split; [|split; [exact O2|exact N2]].
        intros z Jz. change (on_server w4) with (on_server w2). unfold kr in *. rewrite EU in *. apply in_app_iff in Jz as [Jz|[<-|[]]].
        * destruct (IS z Jz) as (oz & Sz & Az & Mz). exists oz. split; [unfold on_server; rewrite Y2 by (now apply NR); exact Sz|auto].
        * exists o0. auto.
    - exists w2. split; [reflexivity|]. split; [exact A2|]. split; [exact T2|]. split; [exact L2|]. split; [exact H2|]. split; [|split; [exact O2|exact N2]].
      intros z Jz. apply in_app_iff in Jz as [Jz|[<-|[]]].
      + destruct (IS z Jz) as (oz & Sz & Az & Mz). exists oz. split; [unfold on_server; rewrite Y2 by (now apply NR); exact Sz|]. split; [exact Az|].
        unfold kr in *. destruct upd; [|exact Mz]. apply kept; [congruence|exact Mz].
      + exists o0. auto.
  Qed.

  Lemma sload_rest m : forall l w', rows = l ++ m -> sinv l w' -> exists w'', load_by upd a m w' = (w'', Ok tt) /\ sinv rows w''.
  Proof.
    induction m as [|x m IH]; intros l w' ER H.
    - exists w'. split; [reflexivity|]. rewrite app_nil_r in ER. now subst.
    - destruct (srow_step l x m w' ER H) as (w1 & E & H1). destruct (IH (l ++ [x]) w1) as (w2 & E2 & H2); [now rewrite <- app_assoc|exact H1|].
      exists w2. split; [|exact H2]. cbn [load_by]. unfold bind. now rewrite E.
  Qed.
  Lemma sinv_start : sinv [] w.
  Proof. do 2 (split; [reflexivity|]). split; [lia|]. split; [reflexivity|]. split; [intros x []|]. split; [reflexivity|apply FS]. Qed.
End Load.
Lemma sload_all upd w a ad i tops rows : fresh_store w a ad i rows -> dataset (ad_classes ad) tops rows ->
  exists w', load_by upd a rows w = (w', Ok tt) /\ sinv upd w ad i rows w'.
Proof.
  intros FS DS. apply (sload_rest upd w a ad i rows FS) with (l := []).
  - intros x I. destruct (da_class _ _ _ DS x I) as (c & H). exists c. exact H.
  - exact (da_keys _ _ _ DS).
  - intros l x m ER. pose proof (da_parent _ _ _ DS l x m ER) as P. destruct (r_parent x); [apply P|exact I].
  - reflexivity.
  - now apply (sinv_start upd w a ad i rows).
Qed.
