(** * EditFacts: single edits of adapters that hold the data of records. *)
From Verif Require Export EditSpec PoolEnd.

Lemma at_key_ok k k' : at_key k k' = true <-> k = k'.
Proof.
  unfold at_key. rewrite andb_true_iff, !String.eqb_eq. split; [|now intros ->]. intros (A & B). now apply injective_projections.
Qed.
Lemma at_key_no k k' : at_key k k' = false <-> k <> k'.
Proof. rewrite <- at_key_ok. destruct (at_key k k'); split; congruence. Qed.

(** ** Versions of records *)
Section Version.
  Variables (fuel : nat) (cs : dict cls) (tops : list string) (U : list row).
  Hypothesis RL : realm fuel cs tops U.
  Notation K := (row_key cs).
  (** the record but for its attributes *)
  Definition version (y x : row) : Prop :=
    r_type x = r_type y /\ r_parent x = r_parent y /\
    (forall c f, dget cs (r_type y) = Some c -> ~ In f (c_attributes c) -> dget (r_kw x) f = dget (r_kw y) f) /\
    (forall f, dget (r_kw y) f <> None -> dget (r_kw x) f <> None).
  Definition of_realm (rows : list row) : Prop := forall x, In x rows -> exists y, In y U /\ version y x.
  Lemma version_self x : version x x.
  Proof. repeat split; auto. Qed.
  Lemma of_app l m : of_realm l -> of_realm m -> of_realm (l ++ m).
  Proof. intros A B x I. apply in_app_iff in I as [I|I]; auto. Qed.
  Lemma of_sub l m : incl m l -> of_realm l -> of_realm m.
  Proof. intros A B x I. apply B. auto. Qed.
  Section One.
    Variables (y x : row).
    Hypothesis IY : In y U.
    Hypothesis V : version y x.
    Lemma ve_value c f : dget cs (r_type y) = Some c -> ~ In f (c_attributes c) -> value_in c (r_kw x) f = value_in c (r_kw y) f.
    Proof. intros D N. destruct V as (_ & _ & H & _). unfold value_in. now rewrite (H c f D N). Qed.
    Lemma ve_texts c l : dget cs (r_type y) = Some c -> incl l (c_identifiers c) -> map (text_in c (r_kw x)) l = map (text_in c (r_kw y)) l.
    Proof.
      intros D I. apply map_ext_in. intros f F. unfold text_in. rewrite (ve_value c f D); [reflexivity|].
      destruct (rl_class _ _ _ _ RL y IY) as (c' & D' & _ & CR & _). assert (c' = c) by congruence. subst c'. apply (cr_apart c CR). auto.
    Qed.
    Lemma ve_key : K x = K y.
    Proof.
      unfold row_key. destruct V as (-> & _). destruct (dget cs (r_type y)) as [c|] eqn:D; [|reflexivity]. now rewrite (ve_texts c _ D (incl_refl _)).
    Qed.
    Lemma ve_name : row_name cs x = row_name cs y.
    Proof.
      unfold row_name. rewrite ve_key. destruct V as (-> & _). destruct (dget cs (r_type y)) as [c|] eqn:D; [|reflexivity].
      destruct (rl_class _ _ _ _ RL y IY) as (c' & D' & _ & CR & _). assert (c' = c) by congruence. subst c'.
      destruct (c_shortname c) as [|g gs] eqn:SN; [reflexivity|]. rewrite (ve_texts c _ D); [reflexivity|]. rewrite <- SN. exact (cr_short c CR).
    Qed.
    Lemma ve_class : exists c, dget cs (r_type x) = Some c /\ c_modelname c = r_type x /\ creatable c /\ forall f, In (f, None) (c_fields c) -> dget (r_kw x) f <> None.
    Proof.
      destruct (rl_class _ _ _ _ RL y IY) as (c & D & MN & CR & RQ). destruct V as (T & _ & _ & H). exists c. rewrite T. split; [exact D|]. split; [exact MN|]. split; [exact CR|]. auto.
    Qed.
  End One.
  Lemma re_matching rows : of_realm rows -> matching cs cs rows rows.
  Proof.
    intros OF. destruct (rl_match _ _ _ _ RL) as [A B C N]. split.
    - intros x c I D. destruct (OF x I) as (y & IY & V). pose proof V as (T & _). rewrite T in *. now apply (A y).
    - intros x1 x2 c c' f I1 I2 E D1 D2 F. destruct (OF x1 I1) as (y1 & J1 & V1). destruct (OF x2 I2) as (y2 & J2 & V2).
      pose proof V1 as (T1 & _). pose proof V2 as (T2 & _). rewrite T1 in D1. rewrite T2 in D2. rewrite (ve_key y1 x1 J1 V1), (ve_key y2 x2 J2 V2) in E.
      assert (ET : r_type y1 = r_type y2) by (change (fst (K y1) = fst (K y2)); now rewrite E). assert (c' = c) by congruence. subst c'.
      destruct (rl_class _ _ _ _ RL y1 J1) as (c0 & D0 & _ & CR & _). assert (c0 = c) by congruence. subst c0.
      rewrite (ve_value y1 x1 V1 c f D1 (cr_apart c CR f F)), (ve_value y2 x2 V2 c f D2 (cr_apart c CR f F)). now apply (B y1 y2).
    - intros x1 x2 I1 I2 E. destruct (OF x1 I1) as (y1 & J1 & V1). destruct (OF x2 I2) as (y2 & J2 & V2).
      rewrite (ve_key y1 x1 J1 V1), (ve_key y2 x2 J2 V2) in E. pose proof V1 as (_ & -> & _). pose proof V2 as (_ & -> & _). now apply C.
    - intros l p q Ip Iq. assert (X : forall z, In z l -> fst z = cs /\ exists y, In y U /\ version y (snd z)).
      { intros z Iz. apply in_app_iff in Iz as [Iz|Iz]; apply in_map_iff in Iz as (x & <- & I); (split; [reflexivity|]); exact (OF x I). }
      destruct (X p Ip) as (Ep & y1 & J1 & V1). destruct (X q Iq) as (Eq & y2 & J2 & V2). rewrite Ep, Eq. pose proof V1 as (-> & -> & _). pose proof V2 as (-> & -> & _).
      rewrite (ve_name y1 _ J1 V1), (ve_name y2 _ J2 V2), (ve_key y1 _ J1 V1), (ve_key y2 _ J2 V2).
      assert (IU : forall y, In y U -> In (cs, y) (map (fun x => (cs, x)) U ++ map (fun x => (cs, x)) U)) by (intros y J; apply in_app_iff; left; now apply (in_map (fun x => (cs, x)))).
      exact (N (cs, y1) (cs, y2) (IU y1 J1) (IU y2 J2)).
  Qed.
  Lemma re_shallow rows : of_realm rows -> shallow cs rows (fuel - 1).
  Proof.
    intros OF. destruct (rl_shallow _ _ _ _ RL) as (lv & H). exists lv. intros x I. destruct (OF x I) as (y & J & V). rewrite (ve_key y x J V). pose proof V as (_ & -> & _). now apply H.
  Qed.
  Lemma re_flags rows : of_realm rows -> no_flags cs rows.
  Proof. intros OF x c I D. destruct (OF x I) as (y & J & V). pose proof V as (T & _). rewrite T in D. exact (rl_flags _ _ _ _ RL y c J D). Qed.
  Lemma re_class rows x : of_realm rows -> In x rows -> exists c, dget cs (r_type x) = Some c /\ c_modelname c = r_type x /\ creatable c /\ forall f, In (f, None) (c_fields c) -> dget (r_kw x) f <> None.
  Proof. intros OF I. destruct (OF x I) as (y & J & V). exact (ve_class y x J V). Qed.

  (** ** The records after an edit *)
  Section Set_row.
    Variables (rows : list row) (k : string * string) (f : string) (v : val) (x0 : row) (c0 : cls).
    Hypothesis DS : dataset cs tops rows.
    Hypothesis OF : of_realm rows.
    Hypothesis PV : proper_values cs rows.
    Hypothesis I0 : In x0 rows.
    Hypothesis K0 : K x0 = k.
    Hypothesis C0 : dget cs (r_type x0) = Some c0.
    Hypothesis AT : In f (c_attributes c0).
    Hypothesis VV : py_eq v v = true.
    Definition new_row (x : row) : row := if at_key (K x) k then mkRow (r_type x) (dset (r_kw x) f v) (r_parent x) else x.
    Lemma set_row_eq : set_row cs k f v rows = map new_row rows.
    Proof. reflexivity. Qed.
    Lemma nr_type x : r_type (new_row x) = r_type x.
    Proof. unfold new_row. destruct (at_key _ _); reflexivity. Qed.
    Lemma nr_parent x : r_parent (new_row x) = r_parent x.
    Proof. unfold new_row. destruct (at_key _ _); reflexivity. Qed.
    Lemma nr_class x : K x = k -> dget cs (r_type x) = Some c0.
    Proof. intros E. rewrite <- C0. f_equal. change (fst (K x) = fst (K x0)). now rewrite E, K0. Qed.
    Lemma nr_version y x : version y x -> version y (new_row x).
    Proof.
      intros V. unfold new_row. destruct (at_key (K x) k) eqn:E; [|exact V]. apply at_key_ok in E. destruct V as (T & P & H1 & H2). pose proof (nr_class x E) as C1.
      split; [exact T|]. split; [exact P|]. cbn [r_kw]. split.
      - intros c g D N. rewrite dget_dset. destruct (String.eqb_spec g f) as [->|]; [|now apply (H1 c)]. rewrite T in C1. congruence.
      - intros g N. rewrite dget_dset. destruct (String.eqb g f); [discriminate|auto].
    Qed.
    Lemma nr_of : of_realm (map new_row rows).
    Proof. intros x I. apply in_map_iff in I as (z & <- & I). destruct (OF z I) as (y & J & V). exists y. split; [exact J|]. now apply nr_version. Qed.
    Lemma nr_key x : In x rows -> K (new_row x) = K x.
    Proof. intros I. destruct (OF x I) as (y & J & V). now rewrite (ve_key y x J V), (ve_key y _ J (nr_version y x V)). Qed.
    Lemma nr_keys l : incl l rows -> map K (map new_row l) = map K l.
    Proof. intros I. rewrite map_map. apply map_ext_in. intros x J. apply nr_key. auto. Qed.
    Lemma nr_kids q t : row_kids cs (map new_row rows) q t = row_kids cs rows q t.
    Proof.
      unfold row_kids. assert (G : forall l, incl l rows ->
        map (fun x => snd (K x)) (filter (fun x => is_parent q x && String.eqb (r_type x) t) (map new_row l)) = map (fun x => snd (K x)) (filter (fun x => is_parent q x && String.eqb (r_type x) t) l)).
      { induction l as [|x l IH]; intros IC; [reflexivity|]. cbn [map filter]. unfold is_parent at 1. rewrite nr_parent, nr_type. fold (is_parent q x).
        assert (IL : incl l rows) by (intros z Iz; apply IC; now right). destruct (is_parent q x && String.eqb (r_type x) t); cbn [map]; rewrite (IH IL); [|reflexivity]. f_equal. f_equal. apply nr_key. apply IC. now left. }
      apply G. apply incl_refl.
    Qed.
    Lemma nr_dataset : dataset cs tops (map new_row rows).
    Proof.
      split.
      - intros x I. exact (re_class _ x nr_of I).
      - rewrite nr_keys by apply incl_refl. apply DS.
      - intros l x m E. apply map_eq_app in E as (l1 & m1 & ER & <- & E2). apply map_eq_cons in E2 as (x1 & m2 & -> & <- & <-).
        pose proof (da_parent _ _ _ DS l1 x1 m2 ER) as P. rewrite nr_parent, nr_type. destruct (r_parent x1) as [p|]; [|exact P]. destruct P as (N & y & c & Iy & Ky & Dy & Ch).
        split; [exact N|]. exists (new_row y), c. rewrite nr_type. split; [now apply in_map|]. split; [|auto]. rewrite nr_key; [exact Ky|]. rewrite ER. apply in_app_iff. now left.
    Qed.
    Lemma nr_value x c g : In x rows -> dget cs (r_type x) = Some c -> g <> f \/ K x <> k -> value_in c (r_kw (new_row x)) g = value_in c (r_kw x) g.
    Proof.
      intros I D N. unfold new_row. destruct (at_key (K x) k) eqn:E; [|reflexivity]. apply at_key_ok in E. unfold value_in. cbn [r_kw]. rewrite dget_dset.
      destruct (String.eqb_spec g f) as [->|]; [|reflexivity]. destruct N; contradiction.
    Qed.
    Lemma nr_new x c : K x = k -> value_in c (r_kw (new_row x)) f = Some v.
    Proof. intros E. unfold new_row. apply at_key_ok in E. rewrite E. unfold value_in. cbn [r_kw]. now rewrite dget_dset, String.eqb_refl. Qed.
    Lemma nr_proper : proper_values cs (map new_row rows).
    Proof.
      intros x c g I D F. apply in_map_iff in I as (z & <- & I). rewrite nr_type in D. destruct (String.eqb_spec g f) as [->|NE].
      - destruct (at_key (K z) k) eqn:E.
        + apply at_key_ok in E. exists v. split; [now apply nr_new|exact VV].
        + apply at_key_no in E. rewrite (nr_value z c f I D) by auto. now apply (PV z).
      - rewrite (nr_value z c g I D) by auto. now apply (PV z).
    Qed.
  End Set_row.

  (** the record or one below it *)
  Inductive under (rows : list row) (k : string * string) : string * string -> Prop :=
  | un_self : under rows k k
  | un_step x p : In x rows -> r_parent x = Some p -> under rows k p -> under rows k (K x).
  Lemma gone_ok q gone : existsb (at_key q) gone = true <-> In q gone.
  Proof.
    rewrite existsb_exists. split; [intros (z & I & E); apply at_key_ok in E; now subst|]. intros I. exists q. split; [exact I|]. now apply at_key_ok.
  Qed.
  Lemma under_sub l m k q : incl l m -> under l k q -> under m k q.
  Proof. intros I H. induction H as [|x p J P _ IH]; [constructor|]. apply (un_step m k x p); auto. Qed.
  Lemma cut_ok rows k : dataset cs tops rows -> forall m l gone, rows = l ++ m -> (forall q, In q gone -> under rows k q) -> In k gone ->
    (forall x, In x l -> under rows k (K x) -> In (K x) gone) ->
    (forall x, In x (cut_rows cs gone m) <-> In x m /\ ~ under rows k (K x)).
  Proof.
    intros DS. induction m as [|x m IH]; intros l gone E G1 G0 G2 z; [cbn; tauto|]. cbn [cut_rows].
    assert (IX : In x rows) by (rewrite E; apply in_app_iff; right; now left).
    assert (U1 : existsb (at_key (K x)) gone || match r_parent x with Some p => existsb (at_key p) gone | None => false end = true <-> under rows k (K x)).
    { rewrite orb_true_iff, gone_ok. split.
      - intros [I|I]; [now apply G1|]. destruct (r_parent x) as [p|] eqn:P; [|discriminate]. apply gone_ok in I. apply (un_step rows k x p); auto.
      - intros H. remember (K x) as q eqn:EQ. destruct H as [|x1 p I1 P1 H1]; [now left|]. right. assert (x1 = x) by (apply (row_fun cs rows tops DS); congruence || assumption). subst x1. rewrite P1.
        apply gone_ok. pose proof (da_parent _ _ _ DS l x m E) as Q. rewrite P1 in Q. destruct Q as (_ & y & c & Iy & Ky & _). rewrite <- Ky in *. now apply G2. }
    assert (E' : rows = (l ++ [x]) ++ m) by now rewrite <- app_assoc.
    destruct (existsb _ _ || _) eqn:B.
    - assert (UX : under rows k (K x)) by now apply U1.
      rewrite (IH (l ++ [x]) (K x :: gone) E').
      + split; [intros (I & N); split; [now right|exact N]|]. intros ([<-|I] & N); [contradiction|auto].
      + intros q [<-|I]; [exact UX|auto].
      + now right.
      + intros y I H. apply in_app_iff in I as [I|[<-|[]]]; [right; auto|now left].
    - assert (NX : ~ under rows k (K x)) by (intros H; apply U1 in H; congruence). cbn [In].
      rewrite (IH (l ++ [x]) gone E' G1 G0).
      + split; [intros [<-|(I & N)]; auto|]. intros ([<-|I] & N); auto.
      + intros y I H. apply in_app_iff in I as [I|[<-|[]]]; [auto|contradiction].
  Qed.
  Lemma cut_split : forall rows gone l x m, cut_rows cs gone rows = l ++ x :: m -> exists l' m' gone', rows = l' ++ x :: m' /\ (forall z, In z (cut_rows cs gone l') <-> In z l) /\ m = cut_rows cs gone' m'.
  Proof.
    induction rows as [|y rows IH]; intros gone l x m E; [destruct l; discriminate|]. cbn [cut_rows] in E. destruct (existsb _ _ || _) eqn:B.
    - destruct (IH _ _ _ _ E) as (l' & m' & g & -> & H & M). exists (y :: l'), m', g. split; [reflexivity|]. split; [|exact M]. intros z. cbn [cut_rows]. rewrite B. apply H.
    - destruct l as [|y' l]; cbn [app] in E; injection E as <- E.
      + exists [], rows, gone. split; [reflexivity|]. split; [intros z; cbn; tauto|]. now symmetry.
      + destruct (IH _ _ _ _ E) as (l' & m' & g & -> & H & M). exists (y :: l'), m', g. split; [reflexivity|]. split; [|exact M]. intros z. cbn [cut_rows]. rewrite B. cbn [In]. now rewrite H.
  Qed.
  Lemma cut_nodup : forall rows gone, NoDup (map K rows) -> NoDup (map K (cut_rows cs gone rows)) /\ incl (cut_rows cs gone rows) rows.
  Proof.
    induction rows as [|y rows IH]; intros gone ND; [split; [constructor|apply incl_refl]|]. inversion ND as [|? ? NI ND']; subst. cbn [cut_rows]. destruct (existsb _ _ || _).
    - destruct (IH (K y :: gone) ND') as (A & B). split; [exact A|]. now apply incl_tl.
    - destruct (IH gone ND') as (A & B). split; [|apply incl_cons; [now left|now apply incl_tl]]. cbn [map]. constructor; [|exact A].
      intros I. apply NI. apply in_map_iff in I as (z & E & I). apply in_map_iff. exists z. auto.
  Qed.
  Lemma dataset_pre l m : dataset cs tops (l ++ m) -> dataset cs tops l.
  Proof.
    intros [A B C]. split.
    - intros x I. apply A. apply in_app_iff. now left.
    - rewrite map_app in B. exact (NoDup_app_l _ _ B).
    - intros l1 x m1 E. apply (C l1 x (m1 ++ m)). now rewrite E, <- app_assoc.
  Qed.
  Lemma cut_dataset rows k : dataset cs tops rows -> dataset cs tops (cut_rows cs [k] rows).
  Proof.
    intros DS. pose proof (cut_nodup rows [k] (da_keys _ _ _ DS)) as (ND & IC).
    assert (CO : forall x, In x (cut_rows cs [k] rows) <-> In x rows /\ ~ under rows k (K x)).
    { apply (cut_ok rows k DS rows []); [reflexivity|intros q [<-|[]]; constructor|now left|intros x []]. }
    split; [intros x I; apply (da_class _ _ _ DS); auto|exact ND|]. intros l x m E.
    destruct (cut_split _ _ _ _ _ E) as (l' & m' & g & ER & H & _). pose proof (da_parent _ _ _ DS l' x m' ER) as Q.
    destruct (r_parent x) as [p|] eqn:P; [|exact Q]. destruct Q as (N & y & c & Iy & Ky & Dy & Ch). split; [exact N|]. exists y, c. split; [|auto].
    assert (IX : In x (cut_rows cs [k] rows)) by (rewrite E; apply in_app_iff; right; now left).
    assert (NX : ~ under rows k (K x)) by now apply CO. assert (JX : In x rows) by now apply IC.
    assert (NY : ~ under rows k (K y)). { intros UY. apply NX. apply (un_step rows k x p); [exact JX|exact P|]. now rewrite <- Ky. }
    apply H. apply (cut_ok l' k (dataset_pre l' (x :: m') ltac:(rewrite <- ER; exact DS)) l' [] [k]); [reflexivity|intros q [<-|[]]; constructor|now left|intros z []|].
    split; [exact Iy|]. intros UY. apply NY. apply (under_sub l' rows); [|exact UY]. rewrite ER. intros z Iz. apply in_app_iff. now left.
  Qed.
End Version.

(** ** Reading an object that is there *)
Lemma upd_same w a ad d : is_local w a ad d -> upd_store w a (SLocal d) = w.
Proof.
  intros (A & B). unfold upd_store. rewrite A. assert (E : set_ad_store ad (SLocal d) = ad) by (rewrite <- B; now destruct ad). rewrite E.
  assert (L : list_set (w_ads w) a ad = w_ads w).
  { revert A. generalize (w_ads w) as l. revert a. induction a as [|a IH]; intros [|y l] H; try discriminate; cbn [list_set nth_error] in *; [congruence|]. f_equal. now apply IH. }
  rewrite L. unfold set_ads. now destruct w.
Qed.
Lemma get_there w a t u r : lookup w a t u = Some r -> st_get a (MName t) (IdStr u) w = (w, Ok r).
Proof.
  intros L. destruct (lookup_is_local w a t u r L) as (ad & d & HL). rewrite (st_get_local a (MName t) (IdStr u) w ad d u HL) by reflexivity. cbn [spec_name].
  rewrite (lookup_local w a ad d t u HL) in L. rewrite L, touch_known by (eapply bucket_nonempty_known; eauto). now rewrite (upd_same w a ad d HL).
Qed.
Lemma lookup_heap w h a t u : lookup (set_heap w h) a t u = lookup w a t u.
Proof. reflexivity. Qed.
Lemma like_adapter cs rows x o o' : like_row cs rows x o -> set_o_adapter o None = set_o_adapter o' None -> like_row cs rows x o'.
Proof.
  intros M E. destruct o as [c vs ks fl ad st ms], o' as [c' vs' ks' fl' ad' st' ms']. unfold set_o_adapter in E. cbn in E. injection E as <- <- <- <- <- <-. exact M.
Qed.
Lemma apart_at {A} (l l' : list A) : forall P : A -> A -> Prop, Forall2 P l l' -> forall i x, nth_error l i = Some x -> exists y, nth_error l' i = Some y /\ P x y.
Proof.
  intros P F. induction F as [|x y l l' H _ IH]; intros [|i] z E; try discriminate; cbn [nth_error] in *; [injection E as <-; eauto|now apply IH].
Qed.

(** what an edit of [a] leaves alone *)
Definition edited (cs : dict cls) (a : aid) (rows' : list row) (w w' : world) : Prop :=
  framed a w w' /\ length (w_heap w) <= length (w_heap w') /\
  (forall r o, nth_error (w_heap w) r = Some o -> ~ holds w a r -> exists o', nth_error (w_heap w') r = Some o' /\ set_o_adapter o None = set_o_adapter o' None) /\
  (forall t u r, lookup w' a t u = Some r -> lookup w a t u = Some r \/ length (w_heap w) <= r) /\
  carries w' a cs rows'.

Section Steps.
  Variables (fuel : nat) (cs : dict cls) (tops : list string) (U : list row).
  Hypothesis RL : realm fuel cs tops U.
  Hypothesis F2 : 2 <= fuel.
  Notation K := (row_key cs).
  Variables (w : world) (a : aid) (rows : list row).
  Hypothesis CA : carries w a cs rows.
  Hypothesis DS : dataset cs tops rows.
  Hypothesis OF : of_realm cs U rows.
  Hypothesis PV : proper_values cs rows.
  Lemma ca_ref x y r : In x rows -> In y rows -> lookup w a (fst (K x)) (snd (K x)) = Some r -> lookup w a (fst (K y)) (snd (K y)) = Some r -> x = y.
  Proof.
    intros I J A B. apply (row_fun cs rows tops DS); auto. destruct (ca_keyed w a cs rows tops CA DS _ _ _ A) as (o & H & T & V & _). destruct (ca_keyed w a cs rows tops CA DS _ _ _ B) as (o' & H' & T' & V' & _).
    apply injective_projections; congruence.
  Qed.

  Lemma assign_step k f v x0 c0 : In x0 rows -> K x0 = k -> dget cs (r_type x0) = Some c0 -> In f (c_attributes c0) -> py_eq v v = true ->
    exists w', assign_to a k f v w = (w', Ok tt) /\ edited cs a (set_row cs k f v rows) w w'.
  Proof.
    intros I0 K0 C0 AT VV. destruct (ca_rows _ _ _ _ CA x0 I0) as (r & o & L & H & M). rewrite K0 in L.
    pose proof M as (c & D & T & SH & FL & ND & VI & VA & MK). assert (c = c0) by congruence. subst c. destruct (VA f AT) as (v0 & v1 & V0 & V1 & _).
    set (o' := set_o_vals o (dset (o_vals o) f v)). exists (set_heap w (list_set (w_heap w) r o')). split.
    { unfold assign_to, bind. rewrite (get_there w a (fst k) (snd k) r L), (hget_eq _ _ _ H). unfold lift, setattr_val, dmem. rewrite V1. reflexivity. }
    split; [apply framed_set_heap|]. split; [cbn [w_heap set_heap]; now rewrite list_set_length|]. split.
    { intros r' z Hz N. exists z. split; [|reflexivity]. cbn [w_heap set_heap]. rewrite nth_list_set_neq; [exact Hz|]. intros E. subst r'. apply N. exact (holds_lookup w a _ _ r L). }
    split; [intros t u r' L'; left; exact L'|]. rewrite set_row_eq. split; [exact (ca_local _ _ _ _ CA)| |].
    - intros z Iz. apply in_map_iff in Iz as (x & <- & Ix). rewrite (nr_key fuel cs tops U RL rows k f v x0 c0 OF K0 C0 AT x Ix). cbn [w_heap set_heap].
      assert (RK : forall q t, row_kids cs (map (new_row cs k f v) rows) q t = row_kids cs rows q t) by (intros q t; apply (nr_kids fuel cs tops U RL rows k f v x0 c0 OF K0 C0 AT)).
      destruct (at_key (K x) k) eqn:E.
      + apply at_key_ok in E. assert (x = x0) by (apply (row_fun cs rows tops DS); congruence). subst x. exists r, o'. rewrite K0. split; [exact L|]. split; [now apply (nth_list_set_eq _ _ _ o)|].
        exists c0. rewrite nr_type. split; [exact C0|]. split; [exact T|]. split; [exact SH|]. split; [exact FL|]. split; [cbn [o' o_vals set_o_vals]; now apply NoDup_dset|].
        destruct (re_class fuel cs tops U RL rows x0 OF I0) as (c' & D' & _ & CR & _). assert (c' = c0) by congruence. subst c'.
        assert (KX : K (new_row cs k f v x0) = K x0) by exact (nr_key fuel cs tops U RL rows k f v x0 c0 OF K0 C0 AT x0 Ix).
        split; [|split].
        * intros g G. assert (NE : g <> f) by (intros ->; exact (cr_apart c0 CR f G AT)). cbn [o' o_vals set_o_vals]. rewrite dget_dset. destruct (String.eqb_spec g f); [contradiction|].
          rewrite (nr_value cs rows k f v x0 c0 g I0 C0) by auto. now apply VI.
        * intros g G. cbn [o' o_vals set_o_vals]. rewrite dget_dset. destruct (String.eqb_spec g f) as [->|NE].
          -- exists v, v. split; [now apply nr_new|auto].
          -- rewrite (nr_value cs rows k f v x0 c0 g I0 C0) by auto. now apply VA.
        * intros t g G. rewrite KX. destruct (MK t g G) as (l & Gl & NDl & IL). exists l. split; [exact Gl|]. split; [exact NDl|]. intros u. now rewrite RK.
      + destruct (ca_rows _ _ _ _ CA x Ix) as (r' & z & L' & Hz & Mz). exists r', z. split; [exact L'|]. split.
        * rewrite nth_list_set_neq; [exact Hz|]. intros Q. subst r'. apply at_key_no in E. apply E. rewrite <- K0. f_equal. apply (ca_ref x x0 r); auto. now rewrite K0.
        * unfold new_row. rewrite E. destruct Mz as (c & Dz & Tz & Sz & Fz & Nz & Vz & Az & Kz). exists c. do 7 (split; [assumption|]). intros t g G. destruct (Kz t g G) as (l & Gl & NDl & IL). exists l. split; [exact Gl|]. split; [exact NDl|]. intros u. now rewrite RK.
    - intros q N. destruct (ca_only _ _ _ _ CA q N) as (x & Ix & Kx). exists (new_row cs k f v x). split; [now apply in_map|]. now rewrite (nr_key fuel cs tops U RL rows k f v x0 c0 OF K0 C0 AT x Ix).
  Qed.

  Lemma under_trans k q z : under cs rows k q -> under cs rows q z -> under cs rows k z.
  Proof. intros A H. induction H as [|x p I P _ IH]; [exact A|]. apply (un_step cs rows k x p); auto. Qed.
  Lemma reaches_snoc v q q' q'' : reaches v a q q' -> StoreSpec.child_of v a q' q'' -> reaches v a q q''.
  Proof. intros H C. induction H as [q|q q1 q2 C1 _ IH]; [apply (reach_step v a q q'' q''); [exact C|constructor]|]. apply (reach_step v a q q1 q''); auto. Qed.
  Lemma ca_child q q' : StoreSpec.child_of w a q q' <-> exists x, In x rows /\ r_parent x = Some q /\ K x = q'.
  Proof.
    pose proof (ca_local _ _ _ _ CA) as LO. pose proof (ca_keyed w a cs rows tops CA DS) as KE. rewrite <- (ca_listed w a cs rows tops CA DS). split.
    - intros (r & o & f & l & Lk & H & If & G & IL & _). exists o. destruct (proj2 (read_iff w a LO KE q o)) as (R & IK); [apply (stored_iff w a LO); eauto|]. split; [exact R|]. split; [exact IK|]. exists f, l. auto.
    - intros (o & R & IK & f & l & If & G & IL). destruct (proj1 (stored_iff w a LO q o) (proj1 (read_iff w a LO KE q o) (conj R IK))) as (r & Lk & H). exists r, o, f, l. do 5 (split; [assumption|]).
      assert (LI : listed w a q q') by (exists o; split; [exact R|]; split; [exact IK|]; exists f, l; auto). apply (ca_listed w a cs rows tops CA DS) in LI as (x & Ix & _ & <-).
      destruct (ca_rows _ _ _ _ CA x Ix) as (r' & o' & -> & _). discriminate.
  Qed.

  Lemma ca_reaches k q : reaches w a k q <-> under cs rows k q.
  Proof.
    split.
    - intros H. induction H as [|z z1 q C _ IH]; [constructor|]. apply ca_child in C as (x & Ix & Px & <-). apply (under_trans z (K x)); [|exact IH]. apply (un_step cs rows z x z); auto. constructor.
    - intros H. induction H as [|x z Ix Px _ IH]; [constructor|]. apply (reaches_snoc w k z); [exact IH|]. apply ca_child; eauto.
  Qed.
  (** the world after the child is taken off its parent's list *)
  Definition detached (p : option (string * string)) (k : string * string) (w1 : world) : Prop :=
    w_ads w1 = w_ads w /\ w_redis w1 = w_redis w /\ length (w_heap w1) = length (w_heap w) /\
    (forall r, ~ holds w a r -> nth_error (w_heap w1) r = nth_error (w_heap w) r) /\
    forall x, In x rows -> exists r o o', lookup w a (fst (K x)) (snd (K x)) = Some r /\ nth_error (w_heap w) r = Some o /\ nth_error (w_heap w1) r = Some o' /\ like_row cs rows x o /\
      o_cls o' = o_cls o /\ o_flags o' = o_flags o /\ o_vals o' = o_vals o /\
      forall t f, In (t, f) (c_children (o_cls o)) -> exists l l', dget (o_kids o) f = Some l /\ dget (o_kids o') f = Some l' /\ NoDup l' /\
        forall u, In u l' <-> In u l /\ ~ (p = Some (K x) /\ k = (t, u)).
  Section Drop.
    Variables (p : option (string * string)) (x0 : row).
    Hypothesis I0 : In x0 rows.
    Hypothesis P0 : r_parent x0 = p.
    Let k := K x0.
    Lemma drop_detach : exists r w1, lookup w a (fst k) (snd k) = Some r /\ drop_from fuel a p k w = st_remove fuel a r true w1 /\ detached p k w1.
    Proof.
      destruct (ca_rows _ _ _ _ CA x0 I0) as (r & o & L & H & M). fold k in L. destruct p as [q|].
      - destruct (ca_before cs rows tops DS x0 q I0 P0) as (l1 & y & m1 & cy & ER & Iy & Ky & Dy & Ch). assert (Jy : In y rows) by (rewrite ER; apply in_app_iff; now left).
        destruct (ca_rows _ _ _ _ CA y Jy) as (pr & po & Lp & Hp & Mp). rewrite Ky in Lp. pose proof Mp as (c & D & T & (SI & SS & SA & SC) & FL & ND & VI & VA & MK). assert (c = cy) by congruence. subst c.
        apply in_map_iff in Ch as ([t f] & Et & Ch). cbn [fst] in Et. subst t. destruct (MK _ _ Ch) as (l & Gl & NDl & IL).
        destruct (re_class fuel cs tops U RL rows y OF Jy) as (c' & D' & _ & CR & _). assert (c' = cy) by congruence. subst c'.
        assert (IK : In (snd k) l) by (apply IL; apply row_kids_In; exists x0; split; [exact I0|]; split; [now rewrite Ky|apply surjective_pairing]).
        pose proof (like_key cs rows x0 o (row_good cs rows tops DS x0 I0) M) as (KT & KU).
        destruct (remove_child_ok po o f l (snd k)) as (la & lb & El & Nl & RC); auto.
        { rewrite SC, KT. apply In_dget; [exact (cr_types cy CR)|exact Ch]. }
        set (po' := set_o_kids po (dset (o_kids po) f (la ++ lb))) in *. exists r, (set_heap w (list_set (w_heap w) pr po')). split; [exact L|]. split.
        { unfold drop_from, bind. rewrite (get_there w a _ _ r L), (get_there w a _ _ pr Lp), (hget_eq _ _ _ Hp), (hget_eq _ _ _ H). unfold lift. rewrite RC. reflexivity. }
        do 2 (split; [reflexivity|]). cbn [w_heap set_heap]. split; [apply list_set_length|]. split.
        { intros r' N. apply nth_list_set_neq. intros E. subst r'. apply N. exact (holds_lookup w a _ _ pr Lp). }
        intros x Ix. destruct (ca_rows _ _ _ _ CA x Ix) as (r' & z & L' & Hz & Mz). exists r', z. destruct (at_key (K x) q) eqn:E.
        + apply at_key_ok in E. assert (x = y) by (apply (row_fun cs rows tops DS); congruence). subst x. assert (r' = pr) by (rewrite Ky in L'; congruence). subst r'. assert (z = po) by congruence. subst z.
          exists po'. split; [exact L'|]. split; [exact Hz|]. split; [now apply (nth_list_set_eq _ _ _ po)|]. split; [exact Mz|]. do 3 (split; [reflexivity|]).
          rewrite SC. intros t g G. cbn [po' set_o_kids o_kids]. rewrite dget_dset. destruct (String.eqb_spec g f) as [->|NG].
          * exists l, (la ++ lb). split; [exact Gl|]. split; [reflexivity|]. rewrite El in NDl. split; [exact (NoDup_remove_1 _ _ _ NDl)|]. apply NoDup_remove_2 in NDl.
            assert (t = r_type x0).
            { pose proof (cr_own cy CR) as OW. unfold own_fields in OW. clear - OW G Ch. unfold dvals in OW. induction (c_children cy) as [|[t1 f1] cc IH]; [destruct G|].
              inversion OW as [|? ? NI OW']; subst. destruct G as [G|G], Ch as [Ch|Ch]; try congruence; [| |now apply IH].
              - injection G as -> ->. elim NI. apply in_map_iff. exists (r_type x0, f). auto.
              - injection Ch as -> ->. elim NI. apply in_map_iff. exists (t, f). auto. }
            subst t. intros u. rewrite El. split.
            -- intros I. split; [apply in_app_iff in I as [I|I]; apply in_app_iff; [now left|right; now right]|]. intros (_ & Q). apply NDl. rewrite Q. exact I.
            -- intros (I & N). apply in_app_iff in I as [I|[I|I]]; [apply in_app_iff; now left| |apply in_app_iff; now right]. elim N. split; [congruence|]. rewrite <- I. unfold k, row_key. reflexivity.
          * destruct (MK t g G) as (l' & Gl' & NDl' & IL'). exists l', l'. do 2 (split; [exact Gl'|]). split; [exact NDl'|]. intros u. split; [|tauto]. intros I. split; [exact I|]. intros (_ & Q).
            assert (t = r_type x0) by (change (t = fst k); now rewrite Q). subst t. apply NG. pose proof (cr_types cy CR) as TY. apply (In_dget _ _ _ TY) in G. apply (In_dget _ _ _ TY) in Ch. congruence.
        + apply at_key_no in E. exists z. split; [exact L'|]. split; [exact Hz|]. split.
          { rewrite nth_list_set_neq; [exact Hz|]. intros Q. subst r'. apply E. rewrite <- Ky. f_equal. apply (ca_ref x y pr); auto. now rewrite Ky. }
          split; [exact Mz|]. do 3 (split; [reflexivity|]). destruct Mz as (c & Dz & Tz & (_ & _ & _ & Sz) & _ & _ & _ & _ & Kz). rewrite Sz. intros t g G. destruct (Kz t g G) as (l' & Gl' & NDl' & _). exists l', l'.
          do 2 (split; [exact Gl'|]). split; [exact NDl'|]. intros u. split; [|tauto]. intros I. split; [exact I|]. intros (Q & _). apply E. congruence.
      - exists r, w. split; [exact L|]. split; [unfold drop_from, bind; now rewrite (get_there w a _ _ r L)|]. do 3 (split; [reflexivity|]). split; [reflexivity|].
        intros x Ix. destruct (ca_rows _ _ _ _ CA x Ix) as (r' & z & L' & Hz & Mz). exists r', z, z. do 3 (split; [assumption|]). split; [exact Mz|]. do 3 (split; [reflexivity|]).
        destruct Mz as (c & Dz & Tz & (_ & _ & _ & Sz) & _ & _ & _ & _ & Kz). rewrite Sz. intros t g G. destruct (Kz t g G) as (l' & Gl' & NDl' & _). exists l', l'.
        do 2 (split; [exact Gl'|]). split; [exact NDl'|]. intros u. split; [|tauto]. intros I. split; [exact I|]. intros (Q & _). discriminate.
    Qed.
    Section Cascade.
      Variable (w1 : world).
      Hypothesis DT : detached p k w1.
      Lemma dt_lookup t u : lookup w1 a t u = lookup w a t u.
      Proof. destruct DT as (E & _). unfold lookup. now rewrite E. Qed.
      Lemma dt_local : local_ok w1 a.
      Proof. destruct DT as (E & _). unfold local_ok. rewrite E. exact (ca_local _ _ _ _ CA). Qed.
      Lemma dt_uid o o' : o_cls o' = o_cls o -> o_vals o' = o_vals o -> get_type o' = get_type o /\ get_unique_id o' = get_unique_id o.
      Proof. intros E1 E2. unfold get_type, get_unique_id, get_identifiers, dump_include. now rewrite E1, E2. Qed.
      Lemma dt_keyed : keyed w1 a.
      Proof.
        intros t u r L. rewrite dt_lookup in L. destruct (ca_lookup w a cs rows CA t u r L) as (x & o & Ix & Kx & H & M). destruct DT as (_ & _ & _ & _ & DR). destruct (DR x Ix) as (r' & o1 & o' & L' & H' & H1 & M1 & EC & EF & EV & EK).
        rewrite Kx in L'. cbn [fst snd] in L'. assert (r' = r) by congruence. subst r'. assert (o1 = o) by congruence. subst o1. exists o'. split; [exact H1|]. destruct (dt_uid o o' EC EV) as (-> & ->).
        pose proof (like_key cs rows x o (row_good cs rows tops DS x Ix) M) as (KT & KU). rewrite Kx in KT, KU. split; [exact KT|]. split; [exact KU|].
        intros t' f If. rewrite EC in If. destruct (EK t' f If) as (l & l' & _ & -> & _). discriminate.
      Qed.
      Lemma dt_child q q' : StoreSpec.child_of w1 a q q' <-> StoreSpec.child_of w a q q' /\ ~ (p = Some q /\ k = q').
      Proof.
        destruct DT as (_ & _ & _ & _ & DR). split.
        - intros (r & o' & f & l' & L & H1 & If & G & IL & N). rewrite dt_lookup in L, N. destruct (ca_lookup w a cs rows CA _ _ _ L) as (x & o & Ix & Kx & H & M).
          rewrite <- surjective_pairing in Kx. destruct (DR x Ix) as (r' & o1 & o2 & L' & H' & H1' & M1 & EC & EF & EV & EK). rewrite Kx in L'. assert (r' = r) by congruence. subst r'. assert (o1 = o) by congruence. subst o1. assert (o2 = o') by congruence. subst o2.
          rewrite EC in If. destruct (EK _ _ If) as (l & l2 & Gl & Gl' & _ & IE). assert (l2 = l') by congruence. subst l2. apply IE in IL as (IL & NN). split; [exists r, o, f, l; auto 8|]. now rewrite <- surjective_pairing, Kx in NN.
        - intros ((r & o & f & l & L & H & If & G & IL & N) & NN). destruct (ca_lookup w a cs rows CA _ _ _ L) as (x & o1 & Ix & Kx & H0 & M). rewrite <- surjective_pairing in Kx.
          destruct (DR x Ix) as (r' & o2 & o' & L' & H' & H1' & M1 & EC & EF & EV & EK). rewrite Kx in L'. assert (r' = r) by congruence. subst r'. assert (o2 = o) by congruence. subst o2.
          destruct (EK _ _ If) as (l1 & l' & Gl & Gl' & _ & IE). assert (l1 = l) by congruence. subst l1. exists r, o', f, l'. rewrite !dt_lookup, EC. do 4 (split; [assumption|]). split; [|exact N].
          apply IE. split; [exact IL|]. now rewrite <- surjective_pairing, Kx.
      Qed.
      Lemma dt_deep n : forall q, deep w1 a n q -> deep w a n q.
      Proof. induction n as [|n IH]; intros q H; [exact I|]. destruct H as (q' & C & H). exists q'. apply dt_child in C as (C & _). auto. Qed.
      Lemma dt_limit : limit_ok w1 a fuel k.
      Proof.
        right. intros H. apply dt_deep in H. destruct (ca_deep w a cs rows tops CA DS (fuel - 1) (re_shallow fuel cs tops U RL rows OF) fuel k H); lia.
      Qed.
      Lemma dt_reaches q : reaches w1 a k q <-> under cs rows k q.
      Proof.
        split.
        - assert (G : forall z q, reaches w1 a z q -> under cs rows z q).
          { clear q. intros z q H. induction H as [|z z1 q C _ IH]; [constructor|]. apply dt_child in C as (C & _). apply ca_child in C as (x & Ix & Px & <-). apply (under_trans z (K x)); [|exact IH]. apply (un_step cs rows z x z); auto. constructor. }
          apply G.
        - intros H. induction H as [|x z Ix Px _ IH]; [constructor|]. destruct (at_key (K x) k) eqn:E; [apply at_key_ok in E; rewrite E; constructor|]. apply at_key_no in E.
          apply (reaches_snoc w1 k z); [exact IH|]. apply dt_child. split; [apply ca_child; eauto|]. intros (_ & Q). congruence.
      Qed.
    End Cascade.
    Lemma cut_ok' x : In x (cut_rows cs [k] rows) <-> In x rows /\ ~ under cs rows k (K x).
    Proof. apply (cut_ok cs tops rows k DS rows []); [reflexivity|intros q [<-|[]]; constructor|now left|intros z []]. Qed.
    Lemma drop_step : exists w', drop_from fuel a p k w = (w', Ok tt) /\ edited cs a (cut_rows cs [k] rows) w w'.
    Proof.
      destruct drop_detach as (r & w1 & L & E & DT). rewrite E. clear E. pose proof L as L1. rewrite <- (dt_lookup w1 DT) in L1.
      assert (LI : limit_ok w1 a fuel (fst k, snd k)) by (rewrite <- surjective_pairing; exact (dt_limit w1 DT)).
      destruct (cascade_removes fuel w1 a (fst k) (snd k) r (dt_local w1 DT) (dt_keyed w1 DT) L1 LI) as (w2 & E & G1 & G2 & SB & LO2 & KE2 & FR). exists w2. split; [exact E|].
      pose proof DT as (EA & ER & EL & EH & DR). rewrite <- surjective_pairing in G1, G2. split; [|split; [|split; [|split]]].
      - destruct FR as (F1 & F3 & F4 & F5). rewrite EA in F3, F4, F5. repeat split; auto. congruence.
      - rewrite <- EL. apply Nat.eq_le_incl. clear - SB. induction SB; cbn; congruence.
      - intros i o H N. rewrite <- (EH i N) in H. destruct (apart_at _ _ _ SB i o H) as (o' & H' & Q). eauto.
      - intros t u i H. left. rewrite <- (dt_lookup w1 DT), <- (G2 t u); [exact H|]. intros R. rewrite (G1 t u R) in H. discriminate.
      - split; [exact LO2| |].
        + intros x Ix. apply cut_ok' in Ix as (Ix & NU). destruct (DR x Ix) as (r' & o & o' & L' & H & H1 & M & EC & EF & EV & EK).
          assert (NR : ~ reaches w1 a k (fst (K x), snd (K x))) by (rewrite <- surjective_pairing, (dt_reaches w1 DT); exact NU).
          destruct (apart_at _ _ _ SB r' o' H1) as (o2 & H2 & Q). exists r', o2. rewrite (G2 _ _ NR), (dt_lookup w1 DT). split; [exact L'|]. split; [exact H2|].
          apply (like_adapter cs _ x o' o2); [|exact Q]. destruct M as (c & D & T & SH & FL & ND & VI & VA & MK). exists c. rewrite EF, EV.
          split; [exact D|]. split; [unfold get_type; rewrite EC; exact T|]. split; [rewrite EC; exact SH|]. do 4 (split; [assumption|]).
          intros t f If. pose proof If as If'. destruct SH as (_ & _ & _ & SC). rewrite <- SC in If'. destruct (EK t f If') as (l & l' & Gl & Gl' & ND' & IE). destruct (MK t f If) as (l0 & Gl0 & _ & IL). assert (l0 = l) by congruence. subst l0.
          exists l'. split; [exact Gl'|]. split; [exact ND'|]. intros u. rewrite IE, IL, !row_kids_In. split.
          * intros ((y & Iy & Py & Ky) & N). exists y. split; [|auto]. apply cut_ok'. split; [exact Iy|]. intros UY. remember (K y) as z eqn:Ez. destruct UY as [|y1 q I1 P1 U1].
            -- apply N. split; [|congruence]. assert (y = x0) by (apply (row_fun cs rows tops DS); [exact Iy|exact I0|now rewrite <- Ez]). subst y. congruence.
            -- assert (y1 = y) by (apply (row_fun cs rows tops DS); congruence). subst y1. apply NU. congruence.
          * intros (y & Iy & Py & Ky). apply cut_ok' in Iy as (Iy & NY). split; [eauto|]. intros (_ & Q'). apply NY. rewrite Ky, <- Q'. constructor.
        + intros q N. assert (NR : ~ reaches w1 a k (fst q, snd q)) by (intros R; apply N; exact (G1 _ _ R)). rewrite (G2 _ _ NR), (dt_lookup w1 DT) in N.
          destruct (ca_only _ _ _ _ CA q N) as (x & Ix & Kx). exists x. split; [|exact Kx]. apply cut_ok'. split; [exact Ix|]. rewrite Kx. intros UQ. apply NR. rewrite <- surjective_pairing. now apply (dt_reaches w1 DT).
    Qed.
  End Drop.

  Section Add.
    Variables (x : row) (ad : adapter).
    Hypothesis AD : nth_error (w_ads w) a = Some ad.
    Hypothesis AC : ad_classes ad = cs.
    Hypothesis IU : In x U.
    Hypothesis NEW : forall y, In y rows -> K y <> K x.
    Hypothesis PAR : forall q, r_parent x = Some q -> exists y, In y rows /\ K y = q.
    Lemma add_dataset : dataset cs tops (rows ++ [x]).
    Proof.
      split.
      - intros y I. apply in_app_iff in I as [I|[<-|[]]]; [now apply (da_class _ _ _ DS)|now apply (rl_class _ _ _ _ RL)].
      - rewrite map_app. apply NoDup_app_intro; [apply DS|repeat constructor; intros []|]. intros q I [J|[]]. apply in_map_iff in I as (y & Ey & I). apply (NEW y I). congruence.
      - intros l y m E. destruct m as [|z m].
        + apply app_inj_tail in E as (<- & <-). pose proof (rl_place _ _ _ _ RL x IU) as P. destruct (r_parent x) as [q|] eqn:Q; [|exact P]. destruct P as (N & c & D & Ch). split; [exact N|].
          destruct (PAR q eq_refl) as (y & Iy & Ky). exists y, c. split; [exact Iy|]. split; [exact Ky|]. split; [|exact Ch]. rewrite <- D, <- Ky. reflexivity.
        + apply (da_parent _ _ _ DS l y (removelast (z :: m))). assert (N : z :: m <> []) by discriminate. destruct (exists_last N) as (m' & z' & Em). rewrite Em in *. rewrite removelast_last.
          assert (E' : rows ++ [x] = (l ++ y :: m') ++ [z']) by (rewrite E, <- app_assoc; reflexivity). apply app_inj_tail in E' as (E' & _). exact E'.
    Qed.
    Lemma no_kid_new q t u : q = K x -> ~ In u (row_kids cs (rows ++ [x]) q t).
    Proof.
      intros -> I. apply row_kids_In in I as (y & I & P & _). apply in_app_iff in I as [I|[<-|[]]].
      - destruct (ca_before cs rows tops DS y (K x) I P) as (l & z & m & c & E & Iz & Kz & _). apply (NEW z); [rewrite E; apply in_app_iff; now left|exact Kz].
      - destruct (PAR _ P) as (z & Iz & Kz). exact (NEW z Iz Kz).
    Qed.
    (** nothing changes for the others but the parent *)
    Lemma like_kept y o : r_parent x <> Some (K y) -> like_row cs rows y o -> like_row cs (rows ++ [x]) y o.
    Proof.
      intros NP (c & D & T & SH & FL & ND & VI & VA & MK). exists c. do 7 (split; [assumption|]). intros t f I. destruct (MK t f I) as (l & G & N & IL). exists l. do 2 (split; [assumption|]).
      intros u. rewrite row_kids_snoc, (is_parent_no (K y) x NP). cbn [andb]. rewrite app_nil_r. apply IL.
    Qed.
    Lemma add_step : exists w', load_row a x w = (w', Ok tt) /\ edited cs a (rows ++ [x]) w w'.
    Proof.
      destruct (rl_class _ _ _ _ RL x IU) as (c & D & MN & CR & RQ). destruct (ca_local _ _ _ _ CA) as (ad0 & d & A0 & S0 & N1 & N2). assert (ad0 = ad) by congruence. subst ad0.
      assert (HL : is_local w a ad d) by now split.
      destruct (RowFacts.inst_vals c (r_kw x) RQ (cr_fields c CR)) as (vals & EI & KV & VV).
      set (o0 := mkObj c vals (map (fun f => (f, [])) (c_kid_fields c)) (c_flags c) None StSuccess "") in *. set (o1 := set_o_adapter o0 (Some a)).
      assert (M1 : like_row cs (rows ++ [x]) x o1).
      { exists c. split; [exact D|]. split; [exact MN|]. split; [repeat split|]. split; [exact (rl_flags _ _ _ _ RL x c IU D)|].
        split; [unfold dkeys; cbn [o1 o0 set_o_adapter o_vals]; rewrite KV; exact (cr_fields c CR)|]. cbn [o1 o0 set_o_adapter o_vals o_kids]. split; [|split].
        - intros f If. apply VV. exact (cr_ids c CR f If).
        - intros f If. destruct (rl_proper _ _ _ _ RL x c f IU D) as (v & Ev & Pv); [apply in_app_iff; now right|]. exists v, v. rewrite VV by exact (cr_attrs c CR f If). auto.
        - intros t f If. exists []. split; [|split; [constructor|]].
          + assert (J : In f (c_kid_fields c)) by (apply (cr_kids c CR); apply in_map_iff; exists (t, f); auto).
            clear - J. induction (c_kid_fields c) as [|g gs IH]; [destruct J|]. cbn [map dget]. destruct (String.eqb_spec f g); [reflexivity|]. apply IH. destruct J; [congruence|assumption].
          + intros u. split; [intros []|]. intros I. now apply no_kid_new in I. }
      assert (GR : good_row cs x) by (exists c; auto). pose proof (like_key cs (rows ++ [x]) x o1 GR M1) as (GT & GU1).
      assert (GU : get_unique_id o0 = Ok (snd (K x))) by (rewrite <- (get_unique_id_adapter o0 (Some a)); exact GU1).
      assert (GT0 : get_type o0 = fst (K x)) by exact GT.
      assert (AB : dget (bucket d (fst (K x))) (snd (K x)) = None).
      { destruct (dget (bucket d (fst (K x))) (snd (K x))) as [r|] eqn:G; [|reflexivity]. destruct (ca_only _ _ _ _ CA (K x)) as (y & Iy & Ky); [|elim (NEW y Iy Ky)]. rewrite (lookup_local w a ad d _ _ HL), G. discriminate. }
      set (r := length (w_heap w)). set (w1 := set_heap w (w_heap w ++ [o0])). assert (L1 : is_local w1 a ad d) by exact HL.
      assert (H1 : nth_error (w_heap w1) r = Some o0) by (unfold w1, r; cbn [w_heap set_heap]; rewrite nth_error_app2, Nat.sub_diag by lia; reflexivity).
      set (d' := dset d (fst (K x)) (dset (bucket d (fst (K x))) (snd (K x)) r)).
      set (w2 := mkWorld (w_heap w ++ [o1]) (list_set (w_ads w) a (set_ad_store ad (SLocal d'))) (w_redis w) (w_trace w)).
      assert (SA : st_add a r w1 = (w2, Ok tt)).
      { rewrite (st_add_local a r w1 _ d o0 (snd (K x)) L1 H1 GU). rewrite GT0, AB. cbv zeta. unfold attach. cbn [o0 o_adapter adapter_truthy]. f_equal.
        unfold upd_store. cbn [w_ads w1 set_heap]. rewrite AD. cbn [w_ads set_ads set_heap w_heap]. rewrite (nth_list_set_eq _ _ _ _ AD). unfold w1, set_ads, set_heap. cbn [w_ads w_heap w_redis w_trace]. rewrite list_set_set. unfold w2, r. f_equal. apply set_last. }
      assert (HL2 : forall h, is_local (set_heap w2 h) a (set_ad_store ad (SLocal d')) d') by (intros h; split; [|reflexivity]; apply (nth_list_set_eq _ _ _ ad AD)).
      assert (ED : forall h t u, lookup (set_heap w2 h) a t u = if String.eqb t (fst (K x)) && String.eqb u (snd (K x)) then Some r else lookup w a t u).
      { intros h t u. rewrite (lookup_local _ a _ d' t u (HL2 h)), (lookup_local w a ad d t u HL). unfold d'. rewrite bucket_dset. destruct (String.eqb_spec t (fst (K x))) as [->|]; [|reflexivity]. rewrite dget_dset. cbn [andb]. now destruct (String.eqb u (snd (K x))). }
      assert (EY : forall h y, In y rows -> lookup (set_heap w2 h) a (fst (K y)) (snd (K y)) = lookup w a (fst (K y)) (snd (K y))).
      { intros h y Iy. rewrite ED. destruct (String.eqb_spec (fst (K y)) (fst (K x))) as [E1|]; [|reflexivity]. destruct (String.eqb_spec (snd (K y)) (snd (K x))) as [E2|]; [|reflexivity]. elim (NEW y Iy). now apply injective_projections. }
      assert (EX : forall h, lookup (set_heap w2 h) a (fst (K x)) (snd (K x)) = Some r) by (intros h; now rewrite ED, !String.eqb_refl).
      assert (NB : forall q, NoDup (dkeys (bucket d q))).
      { intros q. unfold bucket. destruct (dget d q) as [b'|] eqn:G; [|constructor]. apply (N2 q b'). now apply dget_Some_In. }
      assert (LO2 : forall h, local_ok (set_heap w2 h) a).
      { intros h. exists (set_ad_store ad (SLocal d')), d'. destruct (HL2 h) as (X1 & X2). split; [exact X1|]. split; [exact X2|]. assert (N1' : NoDup (dkeys d')) by (apply NoDup_dset; exact N1). split; [exact N1'|].
        intros mm b I. apply (In_dget _ _ _ N1') in I. unfold d' in I. rewrite dget_dset in I. destruct (String.eqb_spec mm (fst (K x))) as [->|].
        - injection I as <-. apply NoDup_dset. apply NB.
        - apply (N2 mm b). now apply dget_Some_In. }
      assert (FR : forall h, framed a w (set_heap w2 h)).
      { intros h. split; [reflexivity|]. cbn [w2 w_ads set_heap]. split; [apply list_set_length|]. split; [intros b NA; apply nth_list_set_neq; congruence|]. intros ad1 A1. assert (ad1 = ad) by congruence. subst ad1. exists (SLocal d'). apply (nth_list_set_eq _ _ _ ad AD). }
      assert (BK : forall h t u r', lookup (set_heap w2 h) a t u = Some r' -> lookup w a t u = Some r' \/ length (w_heap w) <= r').
      { intros h t u r' L. rewrite ED in L. destruct (_ && _); [|now left]. injection L as <-. right. unfold r. lia. }
      assert (ON : forall h q, lookup (set_heap w2 h) a (fst q) (snd q) <> None -> exists y, In y (rows ++ [x]) /\ K y = q).
      { intros h q N. rewrite ED in N. destruct (String.eqb_spec (fst q) (fst (K x))) as [E1|]; [destruct (String.eqb_spec (snd q) (snd (K x))) as [E2|]|]; cbn [andb] in N.
        - exists x. split; [apply in_app_iff; right; now left|]. symmetry. now apply injective_projections.
        - destruct (ca_only _ _ _ _ CA q N) as (y & Iy & Ky). exists y. split; [apply in_app_iff; now left|exact Ky].
        - destruct (ca_only _ _ _ _ CA q N) as (y & Iy & Ky). exists y. split; [apply in_app_iff; now left|exact Ky]. }
      assert (LR : load_row a x w = (match r_parent x with
        | None => ret tt
        | Some p => pr <- st_get a (MName (fst p)) (IdStr (snd p)) ;; parent <- hget pr ;; child <- hget r ;; parent' <- lift (add_child parent child) ;; hset pr parent'
        end) w2).
      { unfold load_row, bind, get_adapter. rewrite AD, AC, D. unfold lift at 1. rewrite EI. unfold halloc. fold w1. fold r. rewrite SA. reflexivity. }
      rewrite LR. clear LR. assert (H2 : nth_error (w_heap w2) r = Some o1) by (unfold w2, r; cbn [w_heap]; rewrite nth_error_app2, Nat.sub_diag by lia; reflexivity).
      assert (LW : forall i, i < length (w_heap w) -> nth_error (w_heap w2) i = nth_error (w_heap w) i) by (intros i LI; unfold w2; cbn [w_heap]; now apply nth_error_app1).
      assert (SM : set_heap w2 (w_heap w2) = w2) by reflexivity. assert (LH : length (w_heap w2) = S (length (w_heap w))) by (unfold w2; cbn [w_heap]; rewrite app_length; cbn; lia).
      destruct (r_parent x) as [q|] eqn:EP.
      - destruct (PAR q eq_refl) as (y & Iy & Ky). destruct (ca_rows _ _ _ _ CA y Iy) as (pr & po & Lp & Hp & Mp). assert (LT : pr < length (w_heap w)) by (apply nth_error_Some; congruence).
        pose proof Mp as (cy & Dy & T & SH & FL & ND & VI & VA & MK). pose proof (rl_place _ _ _ _ RL x IU) as P. rewrite EP in P. destruct P as (_ & cy' & Dy' & Ch).
        assert (cy' = cy) by (rewrite <- Ky in Dy'; cbn [fst row_key] in Dy'; congruence). subst cy'. apply in_map_iff in Ch as ([t f] & Et & Ch). cbn [fst] in Et. subst t. destruct (MK _ _ Ch) as (l & Gl & NDl & IL).
        destruct (re_class fuel cs tops U RL rows y OF Iy) as (c' & D' & _ & CRy & _). assert (c' = cy) by congruence. subst c'. pose proof SH as (_ & _ & _ & SC).
        assert (NI : ~ In (snd (K x)) l). { intros I. apply IL in I. apply row_kids_In in I as (z & Iz & _ & Kz). apply (NEW z Iz). rewrite Kz. unfold row_key. reflexivity. }
        assert (ACH : add_child po o1 = Ok (set_o_kids po (dset (o_kids po) f (l ++ [snd (K x)])))).
        { apply add_child_ok; auto. rewrite SC. rewrite GT. apply In_dget; [exact (cr_types cy CRy)|exact Ch]. }
        set (po' := set_o_kids po (dset (o_kids po) f (l ++ [snd (K x)]))) in *. assert (Hp2 : nth_error (w_heap w2) pr = Some po) by (rewrite LW by exact LT; exact Hp).
        assert (GP : st_get a (MName (fst q)) (IdStr (snd q)) w2 = (w2, Ok pr)) by (apply get_there; rewrite <- SM, <- Ky, (EY _ y Iy); exact Lp).
        exists (set_heap w2 (list_set (w_heap w2) pr po')). split; [unfold bind; rewrite GP, (hget_eq _ _ _ Hp2), (hget_eq _ _ _ H2); unfold lift; rewrite ACH; reflexivity|].
        split; [apply FR|]. cbn [w_heap set_heap]. rewrite list_set_length, LH. split; [lia|]. split.
        { intros i o H N. exists o. split; [|reflexivity]. rewrite nth_list_set_neq by (intros Q; subst i; apply N; exact (holds_lookup w a _ _ pr Lp)). rewrite LW; [exact H|]. apply nth_error_Some. congruence. }
        split; [apply BK|]. split; [apply LO2| |apply ON]. intros z Iz. cbn [w_heap set_heap]. apply in_app_iff in Iz as [Iz|[<-|[]]].
        + rewrite (EY _ z Iz). destruct (ca_rows _ _ _ _ CA z Iz) as (i & o & Li & Hi & Mi). exists i. assert (LI : i < length (w_heap w)) by (apply nth_error_Some; congruence). destruct (at_key (K z) q) eqn:E.
          * apply at_key_ok in E. assert (z = y) by (apply (row_fun cs rows tops DS); congruence). subst z. assert (i = pr) by congruence. subst i. exists po'. split; [exact Li|]. split; [now apply (nth_list_set_eq _ _ _ po)|].
            exists cy. do 7 (split; [assumption|]). intros t g I. cbn [po' set_o_kids o_kids]. rewrite dget_dset. assert (PX : is_parent (K y) x = true) by (apply is_parent_ok; now rewrite Ky). destruct (String.eqb_spec g f) as [->|NG].
            -- assert (t = r_type x).
               { pose proof (cr_own cy CRy) as OW. unfold own_fields in OW. clear - OW I Ch. unfold dvals in OW. induction (c_children cy) as [|[t1 f1] cc IH]; [destruct I|].
                 inversion OW as [|? ? NI OW']; subst. destruct I as [I|I], Ch as [Ch|Ch]; try congruence; [| |now apply IH].
                 - injection I as -> ->. elim NI. apply in_map_iff. exists (r_type x, f). auto.
                 - injection Ch as -> ->. elim NI. apply in_map_iff. exists (t, f). auto. }
               subst t. exists (l ++ [snd (K x)]). split; [reflexivity|]. split; [apply NoDup_app_intro; [exact NDl|repeat constructor; intros []|]; intros u J [Q|[]]; apply NI; now rewrite Q|].
               intros u. rewrite row_kids_snoc, PX, String.eqb_refl. cbn [andb]. rewrite !in_app_iff, IL. reflexivity.
            -- destruct (MK t g I) as (l' & Gl' & NDl' & IL'). exists l'. do 2 (split; [assumption|]). intros u. rewrite row_kids_snoc, PX. cbn [andb]. destruct (String.eqb_spec (r_type x) t) as [<-|]; [|now rewrite app_nil_r].
               elim NG. pose proof (cr_types cy CRy) as TY. apply (In_dget _ _ _ TY) in I. apply (In_dget _ _ _ TY) in Ch. congruence.
          * apply at_key_no in E. exists o. split; [exact Li|]. split.
            -- rewrite nth_list_set_neq; [rewrite LW by exact LI; exact Hi|]. intros Q. subst i. apply E. rewrite <- Ky. f_equal. apply (ca_ref z y pr); auto.
            -- apply like_kept; [|exact Mi]. congruence.
        + rewrite EX. exists r, o1. split; [reflexivity|]. split; [|exact M1]. rewrite nth_list_set_neq; [exact H2|]. unfold r. lia.
      - exists w2. split; [reflexivity|]. rewrite <- SM. split; [apply FR|]. rewrite SM. split; [lia|]. split.
        { intros i o H N. exists o. split; [|reflexivity]. rewrite LW; [exact H|]. apply nth_error_Some. congruence. }
        split; [rewrite <- SM; apply BK|]. rewrite <- SM. split; [apply LO2| |apply ON]. intros z Iz. apply in_app_iff in Iz as [Iz|[<-|[]]].
        + rewrite (EY _ z Iz). destruct (ca_rows _ _ _ _ CA z Iz) as (i & o & Li & Hi & Mi). exists i, o. split; [exact Li|]. split; [rewrite SM, LW; [exact Hi|apply nth_error_Some; congruence]|]. apply like_kept; [congruence|exact Mi].
        + rewrite EX. exists r, o1. auto.
    Qed.
  End Add.
End Steps.
