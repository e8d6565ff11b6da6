(** * RowFacts: filling an adapter from records. *)
From Verif Require Export RowSpec ConvSample.

(** ** The objects *)
Lemma inst_vals c kw : (forall f, In (f, None) (c_fields c) -> dget kw f <> None) -> NoDup (map fst (c_fields c)) ->
  exists vals, instantiate c kw [] None None = Ok (mkObj c vals (map (fun f => (f, [])) (c_kid_fields c)) (c_flags c) None StSuccess "") /\
    map fst vals = map fst (c_fields c) /\ forall f, In f (map fst (c_fields c)) -> dget vals f = value_in c kw f.
Proof.
  intros RQ ND. unfold instantiate. match goal with |- context [rmapM ?g _] => set (G := g) end.
  assert (X : forall l, (forall f dv, In (f, dv) l -> dget (c_fields c) f = Some dv) -> (forall f, In (f, None) l -> dget kw f <> None) -> NoDup (map fst l) ->
    exists vals, rmapM G l = Ok vals /\ map fst vals = map fst l /\ forall f, In f (map fst l) -> dget vals f = value_in c kw f).
  { induction l as [|[f dv] l IH]; intros HG HR HN; [exists []; repeat split; intros f []|]. inversion HN as [|? ? NI HN']. subst.
    destruct IH as (vals & E & K & V); [intros; apply HG; now right|intros; apply HR; now right|exact HN'|].
    assert (Y : exists v, G (f, dv) = Ok (f, v) /\ value_in c kw f = Some v).
    { unfold G, value_in. cbn [fst snd]. destruct (dget kw f) as [v|] eqn:D; [eauto|]. rewrite (HG f dv) by now left. destruct dv as [v|]; [eauto|]. elim (HR f); [now left|exact D]. }
    destruct Y as (v & Y & VV). exists ((f, v) :: vals). cbn [rmapM rbind map fst]. rewrite Y. cbn [rbind]. rewrite E. cbn [rbind]. split; [reflexivity|]. split; [now rewrite K|].
    intros g [<-|I]; cbn [dget]; [now rewrite String.eqb_refl|]. destruct (String.eqb_spec g f) as [->|N]; [elim NI; exact I|]. now apply V. }
  destruct (X (c_fields c)) as (vals & E & K & V); auto.
  { intros f dv I. apply In_dget; [exact ND|exact I]. }
  rewrite E. cbn [rbind]. exists vals. split; [|auto]. reflexivity.
Qed.

Lemma value_there c kw f : (forall g, In (g, None) (c_fields c) -> dget kw g <> None) -> In f (map fst (c_fields c)) ->
  exists v, value_in c kw f = Some v.
Proof.
  intros RQ I. unfold value_in. destruct (dget kw f) as [v|] eqn:D; [eauto|]. destruct (dget (c_fields c) f) as [[v|]|] eqn:G; [eauto| |].
  - elim (RQ f); [now apply dget_Some_In|exact D].
  - apply dget_None in G. now elim G.
Qed.

Section Rows.
  Variable cs : dict cls.
  Notation K := (row_key cs).

  Definition good_row (x : row) : Prop := exists c, dget cs (r_type x) = Some c /\ c_modelname c = r_type x /\ creatable c /\
    forall f, In (f, None) (c_fields c) -> dget (r_kw x) f <> None.
  Section Made.
    Variables (rows : list row) (x : row) (o : obj).
    Hypothesis GR : good_row x.
    Hypothesis MF : made_from cs rows x o.
    Lemma made_type : get_type o = r_type x.
    Proof. destruct GR as (c & D & N & _). destruct MF as (c' & D' & E & _). unfold get_type. congruence. Qed.
    Lemma made_texts l : incl l (c_identifiers (o_cls o)) -> forall g, (forall k, In k l -> g k = dget (o_vals o) k) ->
      rmapM (fun k => rbind (match g k with Some v => Ok v | None => Err ExnKeyError end) (fun v => Ok (py_str v))) l = Ok (map (text_in (o_cls o) (r_kw x)) l).
    Proof.
      destruct GR as (c & D & N & CR & RQ). destruct MF as (c' & D' & EC & _ & _ & EV & V & _). rewrite D in D'. injection D' as <-. rewrite EC. intros L g G.
      induction l as [|k l IH]; [reflexivity|]. cbn [rmapM map]. rewrite IH; [|intros z I; apply L; now right|intros; apply G; now right].
      assert (I : In k (map fst (c_fields c))) by (apply (cr_ids c CR), L; now left). destruct (value_there c (r_kw x) k RQ I) as (v & X).
      rewrite (G k) by now left. rewrite (V k I), X. unfold text_in. rewrite X. reflexivity.
    Qed.
    Lemma made_uid : get_unique_id o = Ok (snd (K x)).
    Proof.
      unfold get_unique_id, create_unique_id, dict_item, get_identifiers. rewrite (made_texts (c_identifiers (o_cls o)) (fun k I => I) (dget (dump_include o (c_identifiers (o_cls o))))).
      - cbn [rbind row_key snd]. destruct MF as (c & -> & <- & _). reflexivity.
      - intros k I. rewrite dget_dump. apply smem_In in I. now rewrite I.
    Qed.
    Lemma made_key : is_key o (K x).
    Proof. split; [exact made_type|exact made_uid]. Qed.
    Lemma made_name : get_shortname o = Ok (row_name cs x).
    Proof.
      pose proof made_uid as U. unfold get_shortname, row_name. destruct GR as (c & D & N & CR & RQ). destruct MF as (c' & D' & EC & _ & _ & EV & V & _). rewrite D in D'. injection D' as <-.
      rewrite D, EC. destruct (c_shortname c) as [|k l] eqn:SN; [exact U|]. unfold getattr_val.
      assert (X : rmapM (fun k => rbind (match dget (o_vals o) k with Some v => Ok v | None => Err ExnAttributeError end) (fun v => Ok (py_str v))) (k :: l) = Ok (map (text_in c (r_kw x)) (k :: l))).
      { assert (L : incl (k :: l) (c_identifiers c)) by (rewrite <- SN; apply (cr_short c CR)). clear SN. induction (k :: l) as [|z m IH]; [reflexivity|]. cbn [rmapM map].
        rewrite IH by (intros y I; apply L; now right). assert (I : In z (map fst (c_fields c))) by (apply (cr_ids c CR), L; now left).
        destruct (value_there c (r_kw x) z RQ I) as (v & X). rewrite (V z I), X. unfold text_in. rewrite X. reflexivity. }
      rewrite X. reflexivity.
    Qed.
  End Made.

  Lemma row_kids_snoc rows x k t : row_kids cs (rows ++ [x]) k t = row_kids cs rows k t ++ (if is_parent k x && String.eqb (r_type x) t then [snd (K x)] else []).
  Proof. unfold row_kids. rewrite filter_app, map_app. cbn [filter]. now destruct (is_parent k x && String.eqb (r_type x) t). Qed.
  Lemma is_parent_ok k x : is_parent k x = true <-> r_parent x = Some k.
  Proof.
    unfold is_parent. destruct (r_parent x) as [[t u]|]; [|split; discriminate]. destruct k as [t' u']. cbn [fst snd]. rewrite andb_true_iff, !String.eqb_eq.
    split; [intros [-> ->]; reflexivity|intros E; injection E; auto].
  Qed.
  Lemma is_parent_no k x : r_parent x <> Some k -> is_parent k x = false.
  Proof. intros H. destruct (is_parent k x) eqn:E; [|reflexivity]. apply is_parent_ok in E. contradiction. Qed.
  Lemma row_kids_In rows k t u : In u (row_kids cs rows k t) <-> exists x, In x rows /\ r_parent x = Some k /\ K x = (t, u).
  Proof.
    unfold row_kids. rewrite in_map_iff. split.
    - intros (x & <- & I). apply filter_In in I as (I & B). apply andb_true_iff in B as (B1 & B2). apply String.eqb_eq in B2. apply is_parent_ok in B1.
      exists x. split; [exact I|]. split; [exact B1|]. unfold row_key. cbn [snd]. now rewrite B2.
    - intros (x & I & P & E). exists x. split; [now rewrite E|]. apply filter_In. split; [exact I|]. apply andb_true_iff. split; [now apply is_parent_ok|].
      apply String.eqb_eq. unfold row_key in E. now injection E.
  Qed.
  Lemma kept rows x y o : r_parent x <> Some (K y) -> made_from cs rows y o -> made_from cs (rows ++ [x]) y o.
  Proof.
    intros NP (c & D & E1 & E2 & E3 & E4 & E5 & E6). exists c. repeat (split; [assumption|]). intros t f I. rewrite row_kids_snoc, (is_parent_no _ _ NP). cbn [andb].
    rewrite app_nil_r. now apply E6.
  Qed.
End Rows.

Lemma set_last {A} (l : list A) x y : list_set (l ++ [x]) (length l) y = l ++ [y].
Proof. induction l as [|z l IH]; [reflexivity|]. simpl. now rewrite IH. Qed.

(** ** Loading *)
Section Load.
  Variables (w : world) (a : aid) (ad : adapter) (rows : list row).
  Hypothesis AD : nth_error (w_ads w) a = Some ad.
  Notation cs := (ad_classes ad).
  Notation K := (row_key cs).
  Notation n0 := (length (w_heap w)).
  Hypothesis GOOD : forall x, In x rows -> good_row cs x.
  Hypothesis KEYS : NoDup (map K rows).
  Hypothesis PARENT : forall l x m, rows = l ++ x :: m ->
    match r_parent x with
    | None => True
    | Some p => exists y c, In y l /\ K y = p /\ dget cs (r_type y) = Some c /\ In (r_type x) (map fst (c_children c))
    end.

  Definition inv (l : list row) (w' : world) : Prop := exists d,
    w_ads w' = list_set (w_ads w) a (set_ad_store ad (SLocal d)) /\ w_redis w' = w_redis w /\ w_trace w' = w_trace w /\
    length (w_heap w') = n0 + length l /\ (forall r, r < n0 -> nth_error (w_heap w') r = nth_error (w_heap w) r) /\
    NoDup (dkeys d) /\ (forall m b, In (m, b) d -> NoDup (dkeys b)) /\
    (forall j y, nth_error l j = Some y -> dget (bucket d (fst (K y))) (snd (K y)) = Some (n0 + j) /\
       exists o, nth_error (w_heap w') (n0 + j) = Some o /\ o_adapter o = Some a /\ made_from cs l y o) /\
    (forall t u r, dget (bucket d t) u = Some r -> exists j y, nth_error l j = Some y /\ K y = (t, u)).

  Lemma here d w' : w_ads w' = list_set (w_ads w) a (set_ad_store ad (SLocal d)) -> is_local w' a (set_ad_store ad (SLocal d)) d.
  Proof. intros E. split; [|reflexivity]. rewrite E. eapply nth_list_set_eq; eauto. Qed.
  Lemma upd_here d d' w' : w_ads w' = list_set (w_ads w) a (set_ad_store ad (SLocal d)) ->
    upd_store w' a (SLocal d') = set_ads w' (list_set (w_ads w) a (set_ad_store ad (SLocal d'))).
  Proof. intros E. destruct (here d w' E) as (H & _). unfold upd_store. rewrite H, E, list_set_set. reflexivity. Qed.

  Lemma row_step l x m w' : rows = l ++ x :: m -> inv l w' -> exists w'', load_row a x w' = (w'', Ok tt) /\ inv (l ++ [x]) w''.
  Proof.
    intros ER (d & EA & ERD & ET & EL & EH & N1 & N2 & IJ & IB). assert (IX : In x rows) by (rewrite ER; apply in_app_iff; right; now left).
    assert (NK : ~ In (K x) (map K l)).
    { pose proof KEYS as ND. rewrite ER, map_app in ND. cbn [map] in ND. apply NoDup_remove_2 in ND. intros I. apply ND. apply in_app_iff. now left. }
    destruct (GOOD x IX) as (c & D & MN & CR & RQ). pose proof (here d w' EA) as HL. pose proof HL as (HA & _).
    destruct (inst_vals c (r_kw x) RQ (cr_fields c CR)) as (vals & EI & KV & VV).
    set (o0 := mkObj c vals (map (fun f => (f, [])) (c_kid_fields c)) (c_flags c) None StSuccess "") in *.
    set (o1 := set_o_adapter o0 (Some a)).
    assert (NC : forall y, In y l -> r_parent y <> Some (K x)).
    { intros y I. apply in_split in I as (l1 & l2 & ->). pose proof (PARENT l1 y (l2 ++ x :: m)) as P.
      rewrite <- app_assoc in ER. specialize (P ER). intros E. rewrite E in P. destruct P as (z & cz & Iz & Kz & _). apply NK. rewrite map_app. apply in_app_iff. left. apply in_map_iff. eauto. }
    assert (NS : r_parent x <> Some (K x)).
    { pose proof (PARENT l x m ER) as P. intros E. rewrite E in P. destruct P as (z & cz & Iz & Kz & _). apply NK. apply in_map_iff. eauto. }
    assert (KF : forall t f, In (t, f) (c_children c) -> dget (map (fun g : string => (g, @nil string)) (c_kid_fields c)) f = Some []).
    { intros t f I. assert (J : In f (c_kid_fields c)) by (apply (cr_kids c CR); apply in_map_iff; exists (t, f); auto).
      clear - J. induction (c_kid_fields c) as [|g gs IH]; [destruct J|]. cbn [map dget]. destruct (String.eqb_spec f g); [reflexivity|]. apply IH. destruct J; [congruence|assumption]. }
    assert (M1 : made_from cs (l ++ [x]) x o1).
    { exists c. split; [exact D|]. do 3 (split; [reflexivity|]). split; [exact KV|]. split; [exact VV|]. intros t f I. cbn [o1 o0 set_o_adapter o_kids]. rewrite (KF t f I). f_equal.
      symmetry. destruct (row_kids cs (l ++ [x]) (K x) t) as [|u us] eqn:E; [reflexivity|]. assert (J : In u (row_kids cs (l ++ [x]) (K x) t)) by (rewrite E; now left).
      apply row_kids_In in J as (y & J & P & _). apply in_app_iff in J as [J|[<-|[]]]; [elim (NC y J); exact P|elim NS; exact P]. }
    assert (GU : get_unique_id o0 = Ok (snd (K x))).
    { rewrite <- (get_unique_id_adapter o0 (Some a)). apply (made_uid cs (l ++ [x]) x); [exists c; auto|exact M1]. }
    assert (GT : get_type o0 = fst (K x)) by exact MN.
    assert (AB : dget (bucket d (fst (K x))) (snd (K x)) = None).
    { destruct (dget (bucket d (fst (K x))) (snd (K x))) as [r|] eqn:G; [|reflexivity]. destruct (IB _ _ _ G) as (j & y & J & E). elim NK. apply in_map_iff. exists y.
      split; [now rewrite E, <- surjective_pairing|eapply nth_error_In; eauto]. }
    set (r := length (w_heap w')). set (w1 := set_heap w' (w_heap w' ++ [o0])).
    assert (L1 : is_local w1 a (set_ad_store ad (SLocal d)) d) by exact HL.
    assert (H1 : nth_error (w_heap w1) r = Some o0).
    { unfold w1, r. cbn [w_heap set_heap]. rewrite nth_error_app2, Nat.sub_diag by lia. reflexivity. }
    set (d' := dset d (fst (K x)) (dset (bucket d (fst (K x))) (snd (K x)) r)).
    set (w2 := mkWorld (w_heap w' ++ [o1]) (list_set (w_ads w) a (set_ad_store ad (SLocal d'))) (w_redis w) (w_trace w)).
    assert (SA : st_add a r w1 = (w2, Ok tt)).
    { rewrite (st_add_local a r w1 _ d o0 (snd (K x)) L1 H1 GU). rewrite GT, AB. cbv zeta. unfold attach. cbn [o0 o_adapter adapter_truthy]. f_equal.
      rewrite (upd_here d (touch d (fst (K x))) w1 EA). cbn [w_heap set_ads w1 set_heap]. unfold upd_store. cbn [w_ads set_heap set_ads]. rewrite (nth_list_set_eq _ _ _ _ AD).
      unfold w1, set_ads, set_heap. cbn [w_ads w_heap w_redis w_trace]. rewrite list_set_set, ERD, ET. unfold w2, r. f_equal. apply set_last. }
    assert (ED' : forall t u, dget (bucket d' t) u = if String.eqb t (fst (K x)) && String.eqb u (snd (K x)) then Some r else dget (bucket d t) u).
    { intros t u. unfold d'. rewrite bucket_dset. destruct (String.eqb_spec t (fst (K x))) as [->|]; [|reflexivity]. rewrite dget_dset. cbn [andb]. destruct (String.eqb_spec u (snd (K x))) as [->|]; reflexivity. }
    assert (N1' : NoDup (dkeys d')) by (apply NoDup_dset; exact N1).
    assert (NB : forall q, NoDup (dkeys (bucket d q))).
    { intros q. unfold bucket. destruct (dget d q) as [b'|] eqn:G; [|constructor]. apply (N2 q b'). now apply dget_Some_In. }
    assert (N2' : forall mm b, In (mm, b) d' -> NoDup (dkeys b)).
    { intros mm b I. apply (In_dget _ _ _ N1') in I. unfold d' in I. rewrite dget_dset in I. destruct (String.eqb_spec mm (fst (K x))) as [->|].
      - injection I as <-. apply NoDup_dset. apply NB.
      - apply (N2 mm b). now apply dget_Some_In. }
    assert (IB' : forall t u r', dget (bucket d' t) u = Some r' -> exists j y, nth_error (l ++ [x]) j = Some y /\ K y = (t, u)).
    { intros t u r' G. rewrite ED' in G. destruct (String.eqb_spec t (fst (K x))) as [->|]; [destruct (String.eqb_spec u (snd (K x))) as [->|]|]; cbn [andb] in G.
      - exists (length l), x. split; [rewrite nth_error_app2, Nat.sub_diag by lia; reflexivity|apply surjective_pairing].
      - destruct (IB _ _ _ G) as (j & y & J & E). exists j, y. split; [|exact E]. rewrite nth_error_app1; [exact J|]. apply nth_error_Some. congruence.
      - destruct (IB _ _ _ G) as (j & y & J & E). exists j, y. split; [|exact E]. rewrite nth_error_app1; [exact J|]. apply nth_error_Some. congruence. }
    assert (BJ : forall j y, nth_error (l ++ [x]) j = Some y -> dget (bucket d' (fst (K y))) (snd (K y)) = Some (n0 + j)).
    { intros j y J. rewrite ED'. destruct (Nat.lt_ge_cases j (length l)) as [LT|GE].
      - rewrite nth_error_app1 in J by exact LT. assert (NE : K y <> K x) by (intros E; apply NK; rewrite <- E; apply in_map; eapply nth_error_In; eauto).
        destruct (String.eqb_spec (fst (K y)) (fst (K x))) as [E1|]; [destruct (String.eqb_spec (snd (K y)) (snd (K x))) as [E2|]|]; cbn [andb]; try apply (IJ j y J).
        elim NE. now apply injective_projections.
      - rewrite nth_error_app2 in J by exact GE. destruct (j - length l) as [|i] eqn:EJ; [|destruct i; discriminate]. injection J as <-.
        rewrite !String.eqb_refl. cbn [andb]. f_equal. unfold r. lia. }
    assert (LR : load_row a x w' = (match r_parent x with
      | None => ret tt
      | Some p => pr <- st_get a (MName (fst p)) (IdStr (snd p)) ;; parent <- hget pr ;; child <- hget r ;; parent' <- lift (add_child parent child) ;; hset pr parent'
      end) w2).
    { unfold load_row, bind, get_adapter. rewrite HA. cbn [ad_classes set_ad_store]. rewrite D. unfold lift at 1. rewrite EI. unfold halloc. fold w1. fold r.
      rewrite SA. reflexivity. }
    rewrite LR. clear LR. assert (H2 : nth_error (w_heap w2) r = Some o1).
    { unfold w2, r. cbn [w_heap]. rewrite nth_error_app2, Nat.sub_diag by lia. reflexivity. }
    assert (LW : forall i, i < length (w_heap w') -> nth_error (w_heap w2) i = nth_error (w_heap w') i) by (intros i LI; unfold w2; cbn [w_heap]; now apply nth_error_app1).
    assert (HN : length (w_heap w2) = n0 + length (l ++ [x])) by (unfold w2; cbn [w_heap]; rewrite !app_length, EL; simpl; lia).
    pose proof (PARENT l x m ER) as DP. destruct (r_parent x) as [p|] eqn:EP.
    - destruct DP as (y & cy & Iy & Ky & Dy & Ch). apply In_nth_error in Iy as (i & Iy). destruct (IJ i y Iy) as (By & oy & Hy & Ay & My).
      assert (LTi : i < length l) by (apply nth_error_Some; congruence).
      assert (Lp : is_local w2 a (set_ad_store ad (SLocal d')) d') by (apply here; reflexivity).
      assert (GP : st_get a (MName (fst p)) (IdStr (snd p)) w2 = (w2, Ok (n0 + i))).
      { rewrite (st_get_local a (MName (fst p)) (IdStr (snd p)) w2 _ d' (snd p) Lp) by reflexivity. cbn [spec_name].
        assert (B : dget (bucket d' (fst p)) (snd p) = Some (n0 + i)) by (rewrite <- Ky; apply BJ; rewrite nth_error_app1; auto). rewrite B. f_equal.
        rewrite touch_known by (eapply bucket_nonempty_known; eauto). rewrite (upd_here d') by reflexivity. reflexivity. }
      assert (H2y : nth_error (w_heap w2) (n0 + i) = Some oy) by (rewrite LW; [exact Hy|lia]).
      destruct My as (c' & D' & MC & MF & MS & MV & MW & MK). rewrite Dy in D'. injection D' as <-.
      assert (GY : good_row cs y) by (apply GOOD; rewrite ER; apply in_app_iff; left; eapply nth_error_In; eauto).
      destruct GY as (cy' & Dy' & MNy & CRy & RQy). rewrite Dy in Dy'. injection Dy' as <-.
      apply in_map_iff in Ch as ([t f] & Et & Ch). cbn [fst] in Et. subst t.
      assert (AC : add_child oy o1 = Ok (set_o_kids oy (dset (o_kids oy) f (row_kids cs l (K y) (r_type x) ++ [snd (K x)])))).
      { apply add_child_ok.
        - rewrite MC. assert (T : get_type o1 = r_type x) by exact MN. rewrite T. apply In_dget; [exact (cr_types cy CRy)|exact Ch].
        - now apply MK.
        - unfold o1. now rewrite get_unique_id_adapter.
        - intros J. apply row_kids_In in J as (z & Jz & _ & Ez). apply NK. apply in_map_iff. exists z. split; [|exact Jz]. rewrite Ez. symmetry. apply surjective_pairing. }
      set (o' := set_o_kids oy (dset (o_kids oy) f (row_kids cs l (K y) (r_type x) ++ [snd (K x)]))) in *.
      exists (set_heap w2 (list_set (w_heap w2) (n0 + i) o')). split.
      { unfold bind. rewrite GP. rewrite (hget_eq _ _ _ H2y), (hget_eq _ _ _ H2). unfold lift. rewrite AC. reflexivity. }
      exists d'. cbn [w_ads w_heap w_redis w_trace set_heap]. do 3 (split; [reflexivity|]).
      split; [rewrite list_set_length; exact HN|]. split; [intros q Q; rewrite nth_list_set_neq by lia; rewrite (LW q) by (rewrite EL; lia); now apply EH|].
      split; [exact N1'|]. split; [exact N2'|]. split; [|exact IB']. intros j z J. split; [now apply BJ|].
      destruct (Nat.eq_dec j i) as [->|NJ].
      + rewrite nth_error_app1 in J by exact LTi. assert (z = y) by congruence. subst z. exists o'. split; [eapply nth_list_set_eq; exact H2y|]. split; [exact Ay|].
        exists cy. split; [exact Dy|]. split; [exact MC|]. split; [exact MF|]. split; [exact MS|]. split; [exact MV|]. split; [exact MW|].
        intros t g I. cbn [o' set_o_kids o_kids]. rewrite dget_dset, row_kids_snoc. assert (PX : is_parent (K y) x = true) by (apply is_parent_ok; now rewrite Ky). rewrite PX. cbn [andb].
        destruct (String.eqb_spec g f) as [->|NG].
        * assert (t = r_type x).
          { pose proof (cr_own cy CRy) as OW. unfold own_fields in OW. clear - OW I Ch. unfold dvals in OW. induction (c_children cy) as [|[t1 f1] cc IH]; [destruct I|].
            inversion OW as [|? ? NI OW']; subst. destruct I as [I|I], Ch as [Ch|Ch]; try congruence; [| |now apply IH].
            - injection I as -> ->. elim NI. apply in_map_iff. exists (r_type x, f). auto.
            - injection Ch as -> ->. elim NI. apply in_map_iff. exists (t, f). auto. }
          subst t. now rewrite String.eqb_refl.
        * rewrite (MK t g I). destruct (String.eqb_spec (r_type x) t) as [<-|]; [|now rewrite app_nil_r].
          elim NG. pose proof (cr_types cy CRy) as TY. apply (In_dget _ _ _ TY) in I. apply (In_dget _ _ _ TY) in Ch. congruence.
      + rewrite nth_list_set_neq by lia. destruct (Nat.lt_ge_cases j (length l)) as [LT|GE].
        * rewrite nth_error_app1 in J by exact LT. destruct (IJ j z J) as (_ & oz & Hz & Az & Mz). exists oz. split; [rewrite LW; [exact Hz|lia]|]. split; [exact Az|]. apply kept; [|exact Mz].
          intros E. rewrite EP in E. injection E as E. apply NJ. rewrite <- Ky in E. pose proof KEYS as ND. rewrite ER, map_app in ND. apply NoDup_app_l in ND.
          apply (proj1 (NoDup_nth_error (map K l)) ND); [now rewrite map_length|]. now rewrite (map_nth_error K _ _ J), (map_nth_error K _ _ Iy), E.
        * rewrite nth_error_app2 in J by exact GE. destruct (j - length l) as [|q] eqn:EJ; [|destruct q; discriminate]. injection J as <-.
          exists o1. assert (n0 + j = r) by (unfold r; lia). rewrite H. auto.
    - exists w2. split; [reflexivity|]. exists d'. do 3 (split; [reflexivity|]). split; [exact HN|]. split; [intros q Q; rewrite (LW q) by (rewrite EL; lia); now apply EH|].
      split; [exact N1'|]. split; [exact N2'|]. split; [|exact IB']. intros j z J. split; [now apply BJ|]. destruct (Nat.lt_ge_cases j (length l)) as [LT|GE].
      + rewrite nth_error_app1 in J by exact LT. destruct (IJ j z J) as (_ & oz & Hz & Az & Mz). exists oz. split; [rewrite LW; [exact Hz|lia]|]. split; [exact Az|]. apply kept; [congruence|exact Mz].
      + rewrite nth_error_app2 in J by exact GE. destruct (j - length l) as [|q] eqn:EJ; [|destruct q; discriminate]. injection J as <-.
        exists o1. assert (n0 + j = r) by (unfold r; lia). rewrite H. auto.
  Qed.

  Lemma load_rest m : forall l w', rows = l ++ m -> inv l w' -> exists w'', load a m w' = (w'', Ok tt) /\ inv rows w''.
  Proof.
    induction m as [|x m IH]; intros l w' ER H.
    - exists w'. split; [reflexivity|]. rewrite app_nil_r in ER. now subst.
    - destruct (row_step l x m w' ER H) as (w1 & E & H1). destruct (IH (l ++ [x]) w1) as (w2 & E2 & H2); [now rewrite <- app_assoc|exact H1|].
      exists w2. split; [|exact H2]. cbn [load]. unfold bind. now rewrite E.
  Qed.
  Lemma inv_start : ad_store ad = SLocal [] -> inv [] w.
  Proof.
    clear GOOD KEYS PARENT. intros ES. exists []. split.
    { rewrite list_set_same; [reflexivity|]. rewrite AD. f_equal. rewrite <- ES. now destruct ad. }
    do 2 (split; [reflexivity|]). split; [simpl; lia|]. split; [reflexivity|]. split; [constructor|]. split; [intros mm b []|]. split; [intros [|j] y X; discriminate|].
    intros t u r X. discriminate.
  Qed.
End Load.
Lemma load_all w a ad tops rows : nth_error (w_ads w) a = Some ad -> dataset (ad_classes ad) tops rows -> ad_store ad = SLocal [] ->
  exists w', load a rows w = (w', Ok tt) /\ inv w a ad rows w'.
Proof.
  intros AD DS ES. apply (load_rest w a ad rows AD) with (l := []).
  - intros x I. destruct (da_class _ _ _ DS x I) as (c & H). exists c. exact H.
  - exact (da_keys _ _ _ DS).
  - intros l x m ER. pose proof (da_parent _ _ _ DS l x m ER) as P. destruct (r_parent x); [apply P|exact I].
  - reflexivity.
  - now apply inv_start.
Qed.
