(** * FleetFacts: adapters that hold the data of records. *)
From Verif Require Export FleetSpec RowEnd.

(** the object has the data of the record: [value_in] for identifiers, equal values for attributes *)
Definition like_row (cs : dict cls) (rows : list row) (x : row) (o : obj) : Prop :=
  exists c, dget cs (r_type x) = Some c /\ get_type o = r_type x /\ same_shape (o_cls o) c /\ o_flags o = 0%N /\ NoDup (dkeys (o_vals o)) /\
    (forall f, In f (c_identifiers c) -> dget (o_vals o) f = value_in c (r_kw x) f) /\
    (forall f, In f (c_attributes c) -> exists v v', value_in c (r_kw x) f = Some v /\ dget (o_vals o) f = Some v' /\ py_eq v v' = true) /\
    forall t f, In (t, f) (c_children c) -> exists l, dget (o_kids o) f = Some l /\ NoDup l /\ forall u, In u l <-> In u (row_kids cs rows (row_key cs x) t).
(** the adapter holds them and nothing else *)
Record carries (w : world) (a : aid) (cs : dict cls) (rows : list row) : Prop := mkCarries {
  ca_local : local_ok w a;
  ca_rows : forall x, In x rows -> exists r o, lookup w a (fst (row_key cs x)) (snd (row_key cs x)) = Some r /\ nth_error (w_heap w) r = Some o /\ like_row cs rows x o;
  ca_only : forall k, lookup w a (fst k) (snd k) <> None -> exists x, In x rows /\ row_key cs x = k
}.

Section Like.
  Variables (cs : dict cls) (rows : list row) (x : row) (o : obj).
  Hypothesis GR : good_row cs x.
  Hypothesis MF : like_row cs rows x o.
  Lemma like_texts l : incl l (c_identifiers (o_cls o)) -> forall (e : exn) g, (forall k, In k l -> g k = dget (o_vals o) k) ->
    exists c, dget cs (r_type x) = Some c /\
    rmapM (fun k => rbind (match g k with Some v => Ok v | None => Err e end) (fun v => Ok (py_str v))) l = Ok (map (text_in c (r_kw x)) l).
  Proof.
    destruct GR as (c & D & N & CR & RQ). destruct MF as (c' & D' & _ & (SI & _) & _ & _ & V & _). rewrite D in D'. injection D' as <-. intros L e g G.
    exists c. split; [exact D|]. induction l as [|k l IH]; [reflexivity|]. cbn [rmapM map]. rewrite IH; [|intros z I; apply L; now right|intros; apply G; now right].
    assert (I : In k (c_identifiers c)) by (rewrite <- SI; apply L; now left). destruct (value_there c (r_kw x) k RQ (cr_ids c CR k I)) as (v & X).
    rewrite (G k) by now left. rewrite (V k I), X. unfold text_in. rewrite X. reflexivity.
  Qed.
  Lemma like_type : get_type o = r_type x.
  Proof. now destruct MF as (c & _ & T & _). Qed.
  Lemma like_uid : get_unique_id o = Ok (snd (row_key cs x)).
  Proof.
    unfold get_unique_id, create_unique_id, dict_item, get_identifiers.
    destruct (like_texts (c_identifiers (o_cls o)) (fun k I => I) ExnKeyError (dget (dump_include o (c_identifiers (o_cls o))))) as (c & D & E).
    - intros k I. rewrite dget_dump. apply smem_In in I. now rewrite I.
    - rewrite E. cbn [rbind row_key snd]. rewrite D. destruct MF as (c' & D' & _ & (SI & _) & _). rewrite D in D'. injection D' as <-. now rewrite SI.
  Qed.
  Lemma like_key : is_key o (row_key cs x).
  Proof. split; [exact like_type|exact like_uid]. Qed.
  Lemma like_name : get_shortname o = Ok (row_name cs x).
  Proof.
    pose proof like_uid as U. unfold get_shortname, row_name. pose proof GR as (c & D & N & CR & RQ). pose proof MF as (c' & D' & _ & (SI & SS & _) & _). rewrite D in D'. injection D' as <-.
    rewrite D, SS. destruct (c_shortname c) as [|k l] eqn:SN; [exact U|]. unfold getattr_val.
    destruct (like_texts (k :: l)) with (e := ExnAttributeError) (g := dget (o_vals o)) as (c' & D' & E); [rewrite SI, <- SN; apply (cr_short c CR)|reflexivity|].
    rewrite D in D'. injection D' as <-. rewrite E. reflexivity.
  Qed.
End Like.

Lemma dataset_tops cs tops tops' rows : (forall t, In t tops <-> In t tops') -> dataset cs tops rows -> dataset cs tops' rows.
Proof.
  intros T [A B C]. split; [exact A|exact B|]. intros l x m E. specialize (C l x m E). destruct (r_parent x) as [p|]; [|now apply T].
  destruct C as (N & H). split; [|exact H]. intros I. apply N. now apply T.
Qed.
Lemma matching_self cs cs' tops rows rows' : dataset cs tops rows -> matching cs cs' rows rows' -> matching cs cs rows rows.
Proof.
  intros DS MA. assert (KF : forall x y, In x rows -> In y rows -> row_key cs x = row_key cs y -> x = y).
  { intros x y I J E. apply In_nth_error in I as (i & I). apply In_nth_error in J as (j & J).
    assert (i = j).
    { apply (proj1 (NoDup_nth_error (map (row_key cs) rows)) (da_keys _ _ _ DS)); [rewrite map_length; apply nth_error_Some; congruence|]. now rewrite (map_nth_error (row_key cs) _ _ I), (map_nth_error (row_key cs) _ _ J), E. }
    congruence. }
  split.
  - intros x c I D. destruct (da_class _ _ _ DS x I) as (c' & D' & N & CR & _). rewrite D in D'. injection D' as <-. exists c. repeat split; auto; apply CR.
  - intros x y c c' f I J E D D' _. assert (x = y) by auto. subst y. congruence.
  - intros x y I J E. f_equal. auto.
  - intros l p q Ip Iq. assert (X : forall z, In z l -> In z (map (fun x => (cs, x)) rows ++ map (fun x => (cs', x)) rows')).
    { intros z Iz. apply in_app_iff. left. apply in_app_iff in Iz as [Iz|Iz]; exact Iz. }
    apply (ma_names _ _ _ _ MA); auto.
Qed.
Lemma matching_back cs cs' tops' rows rows' : matching cs cs' rows rows' -> dataset cs' tops' rows' -> (forall y c, In y rows' -> dget cs' (r_type y) = Some c -> exists c0, dget cs (r_type y) = Some c0 /\ c_modelname c0 = r_type y /\ same_shape c0 c /\ creatable c0) ->
  matching cs' cs rows' rows.
Proof.
  intros MA DS CL. split.
  - exact CL.
  - intros x y c c' f I J E D D' If. assert (T : r_type y = r_type x) by (injection E; congruence). destruct (ma_class _ _ _ _ MA y c' J D') as (c2 & D2 & _ & (SI & _) & _).
    assert (c2 = c) by congruence. subst c2. symmetry. apply (ma_same _ _ _ _ MA y x c' c f); auto. now rewrite <- SI.
  - intros x y I J E. symmetry. apply (ma_place _ _ _ _ MA); auto.
  - intros l p q Ip Iq. assert (X : forall z, In z l -> In z (map (fun x => (cs, x)) rows ++ map (fun x => (cs', x)) rows')).
    { intros z Iz. apply in_app_iff in Iz as [Iz|Iz]; apply in_app_iff; auto. }
    apply (ma_names _ _ _ _ MA); auto.
Qed.

Section One.
  Variables (w : world) (a : aid) (cs : dict cls) (rows : list row) (tops : list string).
  Hypothesis ST : carries w a cs rows.
  Notation K := (row_key cs).
  Hypothesis DS : dataset cs tops rows.

  Lemma row_fun x y : In x rows -> In y rows -> K x = K y -> x = y.
  Proof.
    intros I J E. pose proof (da_keys _ _ _ DS) as ND. apply In_nth_error in I as (i & I). apply In_nth_error in J as (j & J).
    assert (i = j).
    { apply (proj1 (NoDup_nth_error (map K rows)) ND); [rewrite map_length; apply nth_error_Some; congruence|]. now rewrite (map_nth_error K _ _ I), (map_nth_error K _ _ J), E. }
    congruence.
  Qed.
  Lemma row_good x : In x rows -> good_row cs x.
  Proof. intros I. destruct (da_class _ _ _ DS x I) as (c & H). exists c. exact H. Qed.

  Let LO : local_ok w a := ca_local _ _ _ _ ST.
  Lemma ca_lookup t u r : lookup w a t u = Some r -> exists x o, In x rows /\ K x = (t, u) /\ nth_error (w_heap w) r = Some o /\ like_row cs rows x o.
  Proof.
    intros L. destruct (ca_only _ _ _ _ ST (t, u)) as (x & I & E); [cbn [fst snd]; congruence|]. destruct (ca_rows _ _ _ _ ST x I) as (r' & o & L' & H & M).
    rewrite E in L'. cbn [fst snd] in L'. assert (r' = r) by congruence. subst r'. eauto 8.
  Qed.
  Lemma ca_keyed : keyed w a.
  Proof.
    intros t u r L. destruct (ca_lookup t u r L) as (x & o & I & E & H & M). exists o. split; [exact H|].
    destruct (like_key cs rows x o (row_good x I) M) as (X & Y). rewrite E in X, Y. split; [exact X|]. split; [exact Y|].
    intros t' f If. destruct M as (c & _ & _ & (_ & _ & _ & SC) & _ & _ & _ & _ & MK). rewrite SC in If. destruct (MK _ _ If) as (l & -> & _). discriminate.
  Qed.
  Lemma ca_read o : read w a o -> exists x, In x rows /\ like_row cs rows x o.
  Proof.
    intros R. destruct (read_local w a o LO R) as (t & u & r & L & H). destruct (ca_lookup t u r L) as (x & o' & I & _ & H' & M). exists x. split; [exact I|]. congruence.
  Qed.
  Lemma ca_object x : In x rows -> exists o, read w a o /\ like_row cs rows x o.
  Proof.
    intros I. destruct (ca_rows _ _ _ _ ST x I) as (r & o & L & H & M). exists o. split; [|exact M].
    apply (read_iff w a LO ca_keyed (K x) o). apply (stored_iff w a LO). eauto.
  Qed.
  Lemma ca_is x o : In x rows -> like_row cs rows x o -> is_key o (K x).
  Proof. intros I M. apply (like_key cs rows); [now apply row_good|exact M]. Qed.
  Lemma ca_key o x k : In x rows -> like_row cs rows x o -> is_key o k -> K x = k.
  Proof. intros I M IK. exact (key_same o _ _ (ca_is x o I M) IK). Qed.
  Lemma ca_before x p : In x rows -> r_parent x = Some p -> exists l y m c, rows = l ++ x :: m /\ In y l /\ K y = p /\ dget cs (r_type y) = Some c /\ In (r_type x) (map fst (c_children c)).
  Proof.
    intros I E. apply in_split in I as (l & m & ER). pose proof (da_parent _ _ _ DS l x m ER) as P. rewrite E in P. destruct P as (_ & y & c & P). exists l, y, m, c. tauto.
  Qed.
  Lemma ca_listed p k : listed w a p k <-> exists x, In x rows /\ r_parent x = Some p /\ K x = k.
  Proof.
    split.
    - intros (o & R & IK & f & l & If & G & IL). destruct (ca_read o R) as (y & Iy & M). pose proof (ca_key o y p Iy M IK) as Ky.
      destruct M as (c & D & _ & (_ & _ & _ & SC) & _ & _ & _ & _ & MK). rewrite SC in If. destruct (MK _ _ If) as (l' & G' & _ & EL). assert (l' = l) by congruence. subst l'. apply EL in IL.
      apply row_kids_In in IL as (x & Ix & Px & Kx). exists x. split; [exact Ix|]. split; [congruence|]. now destruct k.
    - intros (x & Ix & Px & Kx). destruct (ca_before x p Ix Px) as (l & y & m & c & ER & Iy & Ky & Dy & Ch). assert (Iy' : In y rows) by (rewrite ER; apply in_app_iff; now left).
      destruct (ca_object y Iy') as (o & R & M). exists o. split; [exact R|]. split; [rewrite <- Ky; now apply ca_is|]. destruct M as (c' & D' & _ & (_ & _ & _ & SC) & _ & _ & _ & _ & MK). rewrite Dy in D'. injection D' as <-.
      apply in_map_iff in Ch as ([t f] & Et & Ch). cbn [fst] in Et. subst t. destruct (MK _ _ Ch) as (l' & G & _ & EL). exists f, l'. rewrite <- Kx. cbn [fst row_key]. rewrite SC.
      split; [exact Ch|]. split; [exact G|]. apply EL. apply row_kids_In. exists x. rewrite Ky. auto.
  Qed.
  Lemma ca_forest : forest w a tops.
  Proof.
    apply (local_forest w a LO ca_keyed).
    - intros p p' k L L'. apply ca_listed in L as (x & I & P & E). apply ca_listed in L' as (x' & I' & P' & E'). assert (x = x') by (apply row_fun; congruence). congruence.
    - intros p k L. apply ca_listed in L as (x & I & P & E). apply in_split in I as (l & m & ER). pose proof (da_parent _ _ _ DS l x m ER) as Q. rewrite P in Q. rewrite <- E. exact (proj1 Q).
  Qed.
  Lemma ca_complete : complete w a tops.
  Proof.
    split.
    - intros p k L. apply ca_listed in L as (x & I & _ & <-). destruct (ca_rows _ _ _ _ ST x I) as (r & o & -> & _). discriminate.
    - intros k L. destruct (ca_only _ _ _ _ ST k L) as (x & I & Kx).
      pose proof I as I'. apply in_split in I as (l & m & ER). pose proof (da_parent _ _ _ DS l x m ER) as Q. destruct (r_parent x) as [p|] eqn:P.
      + right. exists p. apply ca_listed. exists x. auto.
      + left. rewrite <- Kx. exact Q.
    - intros o t f l R If G. destruct (ca_read o R) as (x & I & c & _ & _ & (_ & _ & _ & SC) & _ & _ & _ & _ & MK). rewrite SC in If. destruct (MK _ _ If) as (l' & G' & ND & _). congruence.
  Qed.
  Lemma ca_rooted k o : read w a o -> is_key o k -> rooted w a tops k.
  Proof.
    intros R IK. destruct (ca_read o R) as (x & I & M). rewrite <- (ca_key o x k I M IK). clear o k R IK M.
    assert (X : forall j i y, i <= j -> nth_error rows i = Some y -> rooted w a tops (K y)).
    { intros j. induction j as [j IH] using lt_wf_ind. intros i y LE E. pose proof (nth_error_In _ _ E) as J. destruct (nth_error_split _ _ E) as (l & m & ER & LL). pose proof (da_parent _ _ _ DS l y m ER) as Q.
      destruct (r_parent y) as [p|] eqn:P.
      - destruct Q as (_ & z & c & Iz & Kz & _). apply root_kid with (p := p); [|apply ca_listed; exists y; auto]. rewrite <- Kz. apply In_nth_error in Iz as (q & Eq).
        assert (q < length l) by (apply nth_error_Some; congruence). apply (IH q) with (i := q); [lia|lia|]. rewrite ER, nth_error_app1; auto.
      - destruct (ca_rows _ _ _ _ ST y J) as (r & o & L & H & M). pose proof LO as (ad' & d & A & B & N1 & N2).
        assert (RD : exists os, objs_all w a (r_type y) = Ok os /\ In o os).
        { change (fst (K y)) with (r_type y) in L. unfold lookup in L. rewrite A, B in L. apply dget_Some_In in L.
          assert (X : forall rs, (forall r, In r rs -> exists u, In (u, r) (bucket d (r_type y))) -> exists os, Forall2 (fun r o => nth_error (w_heap w) r = Some o) rs os).
          { induction rs as [|r0 rs IHr]; intros HR; [exists []; constructor|]. destruct IHr as (os & F); [intros r' Ir; apply HR; now right|]. destruct (HR r0) as (u & Iu); [now left|].
            assert (Lu : lookup w a (r_type y) u = Some r0).
            { unfold lookup. rewrite A, B. apply In_dget; [|exact Iu]. unfold bucket in *. destruct (dget d (r_type y)) as [b|] eqn:G; [|destruct Iu]. apply (N2 (r_type y)). now apply dget_Some_In. }
            destruct (ca_lookup _ _ _ Lu) as (_ & o' & _ & _ & H' & _). exists (o' :: os). constructor; auto. }
          destruct (X (dvals (bucket d (r_type y)))) as (os & F); [intros r0 Ir; unfold dvals in Ir; apply in_map_iff in Ir as ([u r'] & <- & Ir); eauto|].
          exists os. split; [apply (local_all w a (r_type y) os ad' d A B); exact F|].
          assert (Ir : In r (dvals (bucket d (r_type y)))) by (apply in_map_iff; eexists; split; [|exact L]; reflexivity). destruct (Forall2_in_l _ _ _ _ F Ir) as (o' & Io & Ho). congruence. }
        destruct RD as (os & RO & Io). apply root_top with (l := os) (o := o); auto. exact (ca_is y o J M). }
    apply In_nth_error in I as (i & E). apply (X i i x); auto.
  Qed.
  Lemma ca_unflagged : unflagged w a.
  Proof. intros o R. destruct (ca_read o R) as (x & I & c & _ & _ & _ & EF & _). rewrite EF. auto. Qed.
  Lemma ca_nodup o : read w a o -> NoDup (dkeys (o_vals o)).
  Proof. intros R. now destruct (ca_read o R) as (x & I & c & _ & _ & _ & _ & ND & _). Qed.
  Lemma ca_plain : proper_values cs rows -> plain_values w a.
  Proof.
    intros PV o R. split; [now apply ca_nodup|]. intros k Ik. destruct (ca_read o R) as (x & I & c & D & _ & (SI & _ & SA & _) & _ & _ & VI & VA & _). rewrite SI, SA in Ik.
    pose proof Ik as Ik'. apply in_app_iff in Ik as [Ik|Ik].
    - rewrite (VI k Ik). exact (PV x c k I D Ik').
    - destruct (VA k Ik) as (v & v' & _ & G & Q). exists v'. split; [exact G|]. apply (py_eq_trans v' v v'); [now rewrite py_eq_sym|exact Q].
  Qed.
  Lemma ca_attrs : attributes_set w a.
  Proof.
    intros o k R Ik. destruct (ca_read o R) as (x & I & c & D & _ & (_ & _ & SA & _) & _ & _ & _ & VA & _). rewrite SA in Ik. destruct (VA k Ik) as (v & v' & _ & -> & _). discriminate.
  Qed.
  Lemma ca_deep N : shallow cs rows N -> forall m k, deep w a m k -> m = 0 \/ m < N.
  Proof.
    intros (lv & LV) m k D. assert (X : forall m k, deep w a m k -> m = 0 \/ lv k + m < N).
    { clear m k D. induction m as [|m IH]; intros k D; [now left|]. right. destruct D as (k' & CO & D).
      assert (L : listed w a k k').
      { destruct CO as (r & o & f & l & Lk & H & If & G & IL & _). exists o. destruct (proj2 (read_iff w a LO ca_keyed k o)) as (R & IK); [apply (stored_iff w a LO); eauto|].
        split; [exact R|]. split; [exact IK|]. exists f, l. auto. }
      apply ca_listed in L as (x & I & P & <-). destruct (LV x I) as (LT & PR). specialize (PR k P). destruct (IH _ D) as [->|]; lia. }
    destruct (X m k D); [now left|right; lia].
  Qed.
  Lemma ca_line N : shallow cs rows N -> forall m k, line w a m k -> m = 0 \/ m < N.
  Proof.
    intros (lv & LV) m k D. assert (X : forall m k, line w a m k -> m = 0 \/ (m <= lv k /\ lv k < N)).
    { clear m k D. induction m as [|m IH]; intros k D; [now left|]. right. destruct D as (p & L & D). apply ca_listed in L as (x & I & P & <-). destruct (LV x I) as (LT & PR). specialize (PR p P).
      destruct (IH _ D) as [->|[]]; lia. }
    destruct (X m k D) as [|[]]; [now left|right; lia].
  Qed.
  Lemma ca_by t us : (forall u, In u us -> exists x, In x rows /\ K x = (t, u)) -> exists l, objs_by w a us t = Ok l.
  Proof.
    intros H. assert (X : exists l, Forall2 (fun u o => exists r, lookup w a t u = Some r /\ nth_error (w_heap w) r = Some o) us l).
    { induction us as [|u us IH]; [exists []; constructor|]. destruct IH as (l & F); [intros v Iv; apply H; now right|]. destruct (H u) as (x & I & E); [now left|].
      destruct (ca_rows _ _ _ _ ST x I) as (r & o & L & Hh & _). rewrite E in L. exists (o :: l). constructor; eauto. }
    destruct X as (l & F). exists l. apply local_by; [destruct LO as (ad' & d & A & B & _); eauto|exact F].
  Qed.
  Lemma kids_once k t : NoDup (row_kids cs rows k t).
  Proof.
    pose proof (da_keys _ _ _ DS) as ND. clear ST DS LO. unfold row_kids. induction rows as [|x l IH]; [constructor|]. inversion ND as [|? ? NI ND']. subst. specialize (IH ND'). cbn [filter].
    destruct (is_parent k x && String.eqb (r_type x) t) eqn:B; [|exact IH]. cbn [map]. constructor; [|exact IH]. intros I. apply in_map_iff in I as (y & E & I). apply filter_In in I as (I & B').
    apply andb_true_iff in B as (_ & B). apply andb_true_iff in B' as (_ & B'). apply String.eqb_eq in B, B'. apply NI. apply in_map_iff. exists y. split; [|exact I].
    apply injective_projections; [cbn [row_key fst]; congruence|exact E].
  Qed.
  Lemma ca_has_data : proper_values cs rows -> has_data w a cs rows.
  Proof.
    intros PV. split; [|exact (ca_only _ _ _ _ ST)]. intros x c I D. destruct (ca_rows _ _ _ _ ST x I) as (r & o & L & H & M). exists r, o. split; [exact L|]. split; [exact H|].
    destruct M as (c' & D' & T & _ & _ & _ & VI & VA & MK). rewrite D in D'. injection D' as <-. split; [exact T|]. split.
    - intros f If. destruct (PV x c f I D If) as (v & E & Q). apply in_app_iff in If as [If|If]; [|exact (VA f If)]. exists v, v. rewrite (VI f If), E. auto.
    - intros t f If. destruct (MK t f If) as (l & G & ND & EL). exists l. split; [exact G|]. apply NoDup_Permutation; [exact ND|apply kids_once|exact EL].
  Qed.
End One.

(** what was loaded is carried *)
Lemma stands_carries w a ad n rows tops : stands w a ad n rows -> dataset (ad_classes ad) tops rows -> proper_values (ad_classes ad) rows -> no_flags (ad_classes ad) rows -> carries w a (ad_classes ad) rows.
Proof.
  intros ST DS PV NF. split; [exact (st_local w a ad n rows ST)| |exact (proj2 (stands_filled w a ad n rows ST))].
  intros x I. destruct (proj1 (stands_filled w a ad n rows ST) x I) as (r & o & L & H & _ & M). exists r, o. split; [exact L|]. split; [exact H|].
  pose proof (made_type (ad_classes ad) rows x o (good_of ad rows tops DS x I) M) as T. pose proof (st_vals ad rows tops DS o x) as SV.
  pose proof M as (c & D & EC & EF & _ & EV & _ & MK). exists c. split; [exact D|]. split; [exact T|]. split; [rewrite EC; repeat split|].
  destruct (good_of ad rows tops DS x I) as (c1 & D1 & _ & CR & _). rewrite D in D1. injection D1 as <-.
  split; [rewrite EF; exact (NF x c I D)|]. split; [unfold dkeys; rewrite EV; exact (cr_fields c CR)|]. split; [|split].
  - intros f If. apply (SV c f I M D). apply in_app_iff. now left.
  - intros f If. assert (If' : In f (c_identifiers c ++ c_attributes c)) by (apply in_app_iff; now right). destruct (PV x c f I D If') as (v & E & Q). exists v, v. rewrite (SV c f I M D If'). auto.
  - intros t f If. exists (row_kids (ad_classes ad) rows (row_key (ad_classes ad) x) t). split; [now apply MK|]. split; [|tauto]. apply (kids_once (ad_classes ad) rows tops DS).
Qed.

(** ** Two adapters *)
Section Two.
  Variables (w : world) (fuel : nat) (src dst : aid) (sa da : adapter) (cs cs' : dict cls) (rows rows' : list row).
  Hypothesis NE : src <> dst.
  Hypothesis OK : w_ok w.
  Hypothesis SN : share_nothing w src dst.
  Hypothesis SA : nth_error (w_ads w) src = Some sa.
  Hypothesis DA : nth_error (w_ads w) dst = Some da.
  Hypothesis ST : carries w src cs rows.
  Hypothesis ST' : carries w dst cs' rows'.
  Hypothesis DS : dataset cs (ad_top sa) rows.
  Hypothesis DS' : dataset cs' (ad_top da) rows'.
  Hypothesis MA : matching cs cs' rows rows'.
  Hypothesis CL : forall x c, In x rows -> dget cs (r_type x) = Some c -> exists c', dget (ad_classes da) (r_type x) = Some c' /\ c_modelname c' = r_type x /\ same_shape c' c /\ creatable c'.
  Hypothesis CL' : forall x c, In x rows' -> dget cs' (r_type x) = Some c -> exists c', dget (ad_classes da) (r_type x) = Some c' /\ c_modelname c' = r_type x /\ same_shape c' c /\ creatable c'.
  Hypothesis PV : proper_values cs rows.
  Hypothesis TN : NoDup (ad_top da).
  Hypothesis TT : forall t, In t (ad_top sa) <-> In t (ad_top da).
  Hypothesis F2 : 2 <= fuel.
  Hypothesis SH : shallow cs rows (fuel - 1).
  Hypothesis SH' : shallow cs' rows' (fuel - 1).

  Lemma shape_via c1 c2 c3 : same_shape c1 c2 -> same_shape c3 c2 -> same_shape c1 c3.
  Proof. intros (A & B & C & D) (A' & B' & C' & D'). repeat split; congruence. Qed.
  Lemma two_alike : alike w fuel src dst sa da.
  Proof.
    split; [exact NE|exact OK|exact SN|exact SA|exact DA|exact (ca_local _ _ _ _ ST')|exact (ca_keyed w dst cs' rows' (ad_top da) ST' DS')|exact TN|exact (ca_forest w src cs rows (ad_top sa) ST DS)|exact (ca_forest w dst cs' rows' (ad_top da) ST' DS')|exact (ca_complete w dst cs' rows' (ad_top da) ST' DS')| | | |].
    - split.
      + intros p p' k L L'. apply (ca_listed w src cs rows (ad_top sa) ST DS) in L as (x & I & P & E). apply (ca_listed w dst cs' rows' (ad_top da) ST' DS') in L' as (y & J & P' & E').
        assert (r_parent x = r_parent y) by (apply (ma_place _ _ _ _ MA); congruence). congruence.
      + intros p k L I. apply (fo_top _ _ _ (ca_forest w src cs rows (ad_top sa) ST DS) p k L). now apply TT.
    - intros o [R|R].
      + destruct (ca_read w src cs rows ST o R) as (x & I & c & D & T & SS & _). destruct (CL x c I D) as (c' & D' & N & SS' & CR). rewrite T. exists c'. split; [exact D'|]. split; [exact N|]. split; [eapply shape_via; eauto|exact CR].
      + destruct (ca_read w dst cs' rows' ST' o R) as (x & I & c & D & T & SS & _). destruct (CL' x c I D) as (c' & D' & N & SS' & CR). rewrite T. exists c'. split; [exact D'|]. split; [exact N|]. split; [eapply shape_via; eauto|exact CR].
    - exact (ca_plain w src cs rows ST PV).
    - intros k D. destruct (ca_deep w dst cs' rows' (ad_top da) ST' DS' _ SH' _ _ D); lia.
  Qed.

  Notation ALL := (map (fun x => (cs, x)) rows ++ map (fun x => (cs', x)) rows').
  Lemma two_either o : read w src o \/ read w dst o -> exists q, In q ALL /\ is_key o (row_key (fst q) (snd q)) /\ get_shortname o = Ok (row_name (fst q) (snd q)).
  Proof.
    intros [R|R].
    - destruct (ca_read w src cs rows ST o R) as (x & I & M). exists (cs, x). split; [apply in_app_iff; left; now apply (in_map (fun x => (cs, x)))|]. cbn [fst snd].
      split; [now apply (like_key cs rows), M; apply (row_good cs rows (ad_top sa))|]. apply (like_name cs rows); [now apply (row_good cs rows (ad_top sa))|exact M].
    - destruct (ca_read w dst cs' rows' ST' o R) as (x & I & M). exists (cs', x). split; [apply in_app_iff; right; now apply (in_map (fun x => (cs', x)))|]. cbn [fst snd].
      split; [now apply (like_key cs' rows'), M; apply (row_good cs' rows' (ad_top da))|]. apply (like_name cs' rows'); [now apply (row_good cs' rows' (ad_top da))|exact M].
  Qed.
  Lemma two_in q : In q ALL -> (In (snd q) rows /\ fst q = cs) \/ (In (snd q) rows' /\ fst q = cs').
  Proof. intros I. apply in_app_iff in I as [I|I]; apply in_map_iff in I as (x & <- & I); auto. Qed.
  Lemma two_parent q q' : In q ALL -> In q' ALL -> row_key (fst q) (snd q) = row_key (fst q') (snd q') -> r_parent (snd q) = r_parent (snd q').
  Proof.
    intros I I' E. destruct (two_in q I) as [(J & Eq)|(J & Eq)], (two_in q' I') as [(J' & Eq')|(J' & Eq')]; rewrite Eq, Eq' in E.
    - f_equal. now apply (row_fun cs rows (ad_top sa) DS).
    - now apply (ma_place _ _ _ _ MA).
    - symmetry. now apply (ma_place _ _ _ _ MA).
    - f_equal. now apply (row_fun cs' rows' (ad_top da) DS').
  Qed.
  Lemma two_listed p k : listed w src p k \/ listed w dst p k -> exists q, In q ALL /\ r_parent (snd q) = Some p /\ row_key (fst q) (snd q) = k.
  Proof.
    intros [L|L].
    - apply (ca_listed w src cs rows (ad_top sa) ST DS) in L as (x & I & P & E). exists (cs, x). split; [apply in_app_iff; left; now apply (in_map (fun x => (cs, x)))|auto].
    - apply (ca_listed w dst cs' rows' (ad_top da) ST' DS') in L as (x & I & P & E). exists (cs', x). split; [apply in_app_iff; right; now apply (in_map (fun x => (cs', x)))|auto].
  Qed.
  Lemma two_top q : In q ALL -> In (r_type (snd q)) (ad_top sa) -> In (r_type (snd q)) (ad_top da) -> r_parent (snd q) = None.
  Proof.
    intros I T T'. destruct (r_parent (snd q)) as [p|] eqn:P; [|reflexivity]. exfalso. destruct (two_in q I) as [(J & _)|(J & _)]; apply in_split in J as (l & m & ER).
    - pose proof (da_parent _ _ _ DS l _ m ER) as Q. rewrite P in Q. now apply (proj1 Q).
    - pose proof (da_parent _ _ _ DS' l _ m ER) as Q. rewrite P in Q. now apply (proj1 Q).
  Qed.
  (** the identifiers of an object with the same key in both *)
  Lemma two_ids s d k : read w src s -> read w dst d -> is_key s k -> is_key d k -> forall f, In f (c_identifiers (o_cls s)) -> dget (o_vals d) f = dget (o_vals s) f.
  Proof.
    intros R R' IK IK' f If. destruct (ca_read w src cs rows ST s R) as (x & I & M). destruct (ca_read w dst cs' rows' ST' d R') as (y & J & M').
    pose proof (ca_key cs rows (ad_top sa) DS s x k I M IK) as Kx. pose proof (ca_key cs' rows' (ad_top da) DS' d y k J M' IK') as Ky.
    destruct M as (c & D & _ & (SI & _) & _ & _ & VI & _). destruct M' as (c' & D' & _ & (SI' & _) & _ & _ & VI' & _). assert (TE : r_type x = r_type y) by (rewrite <- Ky in Kx; now injection Kx).
    destruct (CL x c I D) as (c2 & D2 & _ & (X & _) & _). destruct (CL' y c' J D') as (c3 & D3 & _ & (Y & _) & _). rewrite TE in D2. assert (c3 = c2) by congruence. subst c3.
    rewrite SI in If. rewrite (VI f If). rewrite (VI' f) by congruence. symmetry. apply (ma_same _ _ _ _ MA x y c c' f); auto. congruence.
  Qed.
  Lemma two_comparable : comparable w fuel src dst sa da.
  Proof.
    split.
    - intros o R. destruct (two_either o R) as (q & _ & (_ & U) & N). eauto.
    - intros s d k R R' IK IK'. pose proof (two_ids s d k R R' IK IK') as EV.
      destruct (ca_read w src cs rows ST s R) as (x & I & M). destruct (ca_read w dst cs' rows' ST' d R') as (y & J & M').
      pose proof (ca_key cs rows (ad_top sa) DS s x k I M IK) as Kx. pose proof (ca_key cs' rows' (ad_top da) DS' d y k J M' IK') as Ky.
      destruct M as (c & D & _ & (SI & SS & _) & _ & _ & VI & _). destruct M' as (c' & D' & _ & (SI' & SS' & _) & _ & _ & VI' & _). assert (TE : r_type x = r_type y) by (rewrite <- Ky in Kx; now injection Kx).
      destruct (CL x c I D) as (c2 & D2 & _ & (X1 & X2 & _) & CR2). destruct (CL' y c' J D') as (c3 & D3 & _ & (Y1 & Y2 & _) & _). rewrite TE in D2. assert (c3 = c2) by congruence. subst c3.
      split.
      + symmetry. apply shortname_agree; [congruence|congruence| |exact EV]. rewrite SS, SI, <- X1, <- X2. apply (cr_short c2 CR2).
      + apply ids_agree; [now apply (ca_nodup w src cs rows)|now apply (ca_nodup w dst cs' rows')|congruence|exact EV|].
        intros f If. rewrite SI in If. rewrite (VI f If). apply (PV x c f I D). apply in_app_iff. now left.
    - intros o o' k k' R R' IK IK' ET EN H. destruct (two_either o R) as (q & Iq & Kq & Nq). destruct (two_either o' R') as (q' & Iq' & Kq' & Nq').
      assert (E1 : row_key (fst q) (snd q) = k) by (eapply key_same; eauto). assert (E2 : row_key (fst q') (snd q') = k') by (eapply key_same; eauto).
      rewrite <- E1, <- E2. assert (ET' : r_type (snd q) = r_type (snd q')) by (rewrite <- E1, <- E2 in ET; exact ET). apply (ma_names _ _ _ _ MA); auto; [|congruence].
      destruct H as [(T & T')|(p & L & L')].
      + rewrite <- E1 in T, T'. cbn [row_key fst] in T, T'. rewrite (two_top q Iq T T'). symmetry. apply (two_top q' Iq'); rewrite <- ET'; auto.
      + destruct (two_listed p k L) as (z & Iz & Pz & Kz). destruct (two_listed p k' L') as (z' & Iz' & Pz' & Kz').
        rewrite (two_parent q z Iq Iz) by congruence. rewrite (two_parent q' z' Iq' Iz') by congruence. congruence.
    - intros o t f [R|R] If.
      + destruct (ca_read w src cs rows ST o R) as (x & I & c & D & _ & (_ & _ & _ & SC) & _ & _ & _ & _ & MK). rewrite SC in If. destruct (MK _ _ If) as (l & -> & _). discriminate.
      + destruct (ca_read w dst cs' rows' ST' o R) as (x & I & c & D & _ & (_ & _ & _ & SC) & _ & _ & _ & _ & MK). rewrite SC in If. destruct (MK _ _ If) as (l & -> & _). discriminate.
    - intros t _. pose proof (ca_local _ _ _ _ ST) as (ad & d & A & B & _). now apply (all_reads w src ad d t).
    - intros o t f us R If G. destruct (ca_read w src cs rows ST o R) as (x & I & c & D & _ & (_ & _ & _ & SC) & _ & _ & _ & _ & MK). rewrite SC in If. destruct (MK _ _ If) as (l & G' & _ & EL).
      assert (l = us) by congruence. subst l. apply (ca_by w src cs rows ST). intros u Iu. apply EL, row_kids_In in Iu as (z & Iz & _ & Kz). eauto.
    - intros a k [->| ->] L.
      + destruct (ca_line w src cs rows (ad_top sa) ST DS _ SH _ _ L); lia.
      + destruct (ca_line w dst cs' rows' (ad_top da) ST' DS' _ SH' _ _ L); lia.
  Qed.
  Lemma two_entire flags : N.testbit flags 1 = false -> N.testbit flags 2 = false -> entire w flags src dst sa da.
  Proof.
    intros B1 B2. split; [auto|exact (ca_unflagged w src cs rows ST)|exact (ca_unflagged w dst cs' rows' ST')|exact TT| |exact (ca_attrs w dst cs' rows' ST')].
    intros o k. apply (ca_rooted w src cs rows (ad_top sa) ST DS).
  Qed.

  (** one synchronisation *)
  Lemma two_sync h dc flags cb : hooks_succeed h -> spares_attributes da h -> yields_once (dc_order dc) ->
    N.testbit flags 1 = false -> N.testbit flags 2 = false -> no_flags (ad_classes da) rows ->
    exists w' d, sync_from fuel h dst src dc flags cb None w = (w', Ok d) /\ carries w' dst cs rows /\ w_ok w' /\
      (exists s, nth_error (w_ads w') dst = Some (set_ad_store da s)) /\
      (forall b ad, b <> dst -> nth_error (w_ads w) b = Some ad -> exists s', nth_error (w_ads w') b = Some (set_ad_store ad s') /\ store_ext (ad_store ad) s') /\
      (forall t u r, lookup w' dst t u = Some r -> lookup w dst t u = Some r \/ length (w_heap w) <= r).
  Proof.
    intros HK SP YO B1 B2 NF.
    destruct (sync_exact fuel h dst src dc flags cb w sa da two_alike two_comparable HK SP YO (two_entire flags B1 B2)) as (w' & d & E & (H1 & H2) & (LO & KY & AD) & OK' & _ & OT & NW & OR).
    exists w', d. split; [exact E|]. split; [|split; [exact OK'|split; [exact AD|split; [exact OT|exact NW]]]]. split; [exact LO| |].
    - intros x I. destruct (ca_object w src cs rows (ad_top sa) ST DS x I) as (s & R & M). pose proof (ca_is cs rows (ad_top sa) DS x s I M) as IK.
      destruct (H1 s _ R IK) as (o & R' & IK' & ET & SS0 & _ & AT & CH).
      assert (X : In (row_key cs x, o) (stored_objs w' dst)) by (apply (read_iff w' dst LO KY); auto). apply (stored_iff w' dst LO) in X as (r & L & Hh).
      exists r, o. split; [exact L|]. split; [exact Hh|]. destruct (OR s _ r o R IK L Hh) as (c' & D' & FR). change (fst (row_key cs x)) with (r_type x) in D'.
      pose proof M as (c & D & T & SS & EF & ND & VI & VA & MK). destruct (CL x c I D) as (c2 & D2 & _ & SS2 & CR2). rewrite D' in D2. injection D2 as <-.
      assert (SO : same_shape (o_cls o) c) by (destruct SS0 as (P1 & P2 & P3 & P4), SS as (Q1 & Q2 & Q3 & Q4); repeat split; congruence).
      exists c. split; [exact D|]. split; [exact (proj1 IK')|]. split; [exact SO|].
      assert (FI : o_flags o = 0%N /\ NoDup (dkeys (o_vals o)) /\ forall f, In f (c_identifiers c) -> dget (o_vals o) f = dget (o_vals s) f).
      { destruct SS2 as (SI2 & _). destruct FR as [(z & RZ & KZ & ZF & ZK & ZV)|(ZF & ZN & ZV)].
        - destruct (ca_read w dst cs' rows' ST' z RZ) as (y & J & cy & _ & _ & _ & YF & YN & _). split; [congruence|]. split; [now rewrite ZK|]. intros f If. rewrite (ZV f) by congruence.
          apply (two_ids s z _ R RZ IK KZ). destruct SS as (Q1 & _). congruence.
        - split; [rewrite ZF; exact (NF x c' I D')|]. split; [exact ZN|]. intros f If. apply ZV. congruence. }
      destruct FI as (F0 & FN & FV). split; [exact F0|]. split; [exact FN|]. split; [|split].
      + intros f If. rewrite (FV f If). exact (VI f If).
      + intros f If. destruct (AT f) as (v & v' & G & G' & Q); [destruct SS as (_ & _ & SA3 & _); congruence|]. destruct (VA f If) as (v0 & v1 & V0 & G1 & Q1). exists v0, v'. split; [exact V0|]. split; [exact G'|].
        assert (v1 = v) by congruence. subst v1. exact (py_eq_trans _ _ _ Q1 Q).
      + intros t f If. destruct (MK t f If) as (l & G & _ & EL). destruct (CH t f l) as (l' & G' & ND' & EQ); [destruct SS as (_ & _ & _ & SC); congruence|exact G|].
        exists l'. split; [exact G'|]. split; [exact ND'|]. intros u. now rewrite EQ, EL.
    - intros k L. destruct (lookup w' dst (fst k) (snd k)) as [r|] eqn:El; [|congruence]. destruct (KY _ _ _ El) as (o & Hh & T & U & _).
      destruct (proj2 (read_iff w' dst LO KY k o)) as (R & IK); [apply (stored_iff w' dst LO); eauto|]. destruct (H2 o k R IK) as (s & Rs & Ks).
      destruct (ca_read w src cs rows ST s Rs) as (x & I & M). exists x. split; [exact I|]. exact (ca_key cs rows (ad_top sa) DS s x k I M Ks).
  Qed.
End Two.
