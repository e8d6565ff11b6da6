(** * RowEnd: adapters filled from records satisfy the conditions of the other properties. *)
From Verif Require Export RowFacts CopyTop.

(** The adapter was filled from the records, its objects being those from number [n] on *)
Definition stands (w : world) (a : aid) (ad : adapter) (n : nat) (rows : list row) : Prop := exists d,
  nth_error (w_ads w) a = Some ad /\ ad_store ad = SLocal d /\ n + length rows <= length (w_heap w) /\
  NoDup (dkeys d) /\ (forall m b, In (m, b) d -> NoDup (dkeys b)) /\
  (forall j y, nth_error rows j = Some y -> dget (bucket d (fst (row_key (ad_classes ad) y))) (snd (row_key (ad_classes ad) y)) = Some (n + j) /\
     exists o, nth_error (w_heap w) (n + j) = Some o /\ o_adapter o = Some a /\ made_from (ad_classes ad) rows y o) /\
  (forall t u r, dget (bucket d t) u = Some r -> exists j y, nth_error rows j = Some y /\ row_key (ad_classes ad) y = (t, u)).

Section One.
  Variables (w : world) (a : aid) (ad : adapter) (n : nat) (rows : list row) (tops : list string).
  Hypothesis ST : stands w a ad n rows.
  Notation cs := (ad_classes ad).
  Notation K := (row_key cs).
  Hypothesis DS : dataset cs tops rows.

  Lemma key_fun x y : In x rows -> In y rows -> K x = K y -> x = y.
  Proof.
    intros I J E. pose proof (da_keys _ _ _ DS) as ND. apply In_nth_error in I as (i & I). apply In_nth_error in J as (j & J).
    assert (i = j).
    { apply (proj1 (NoDup_nth_error (map K rows)) ND); [rewrite map_length; apply nth_error_Some; congruence|]. now rewrite (map_nth_error K _ _ I), (map_nth_error K _ _ J), E. }
    congruence.
  Qed.
  Lemma good_of x : In x rows -> good_row cs x.
  Proof. intros I. destruct (da_class _ _ _ DS x I) as (c & H). exists c. exact H. Qed.

  Lemma st_local : local_ok w a.
  Proof. destruct ST as (d & A & B & _ & N1 & N2 & _). exists ad, d. auto. Qed.
  Lemma st_lookup t u r : lookup w a t u = Some r -> exists j y o, nth_error rows j = Some y /\ K y = (t, u) /\ r = n + j /\ nth_error (w_heap w) r = Some o /\ o_adapter o = Some a /\ made_from cs rows y o.
  Proof.
    destruct ST as (d & A & B & _ & N1 & N2 & IJ & IB). unfold lookup. rewrite A, B. intros G. destruct (IB _ _ _ G) as (j & y & J & E). destruct (IJ j y J) as (G' & o & H & Ao & M).
    exists j, y, o. rewrite E in G'. cbn [fst snd] in G'. assert (r = n + j) by congruence. subst r. auto 10.
  Qed.
  Lemma st_row x : In x rows -> exists j o, nth_error rows j = Some x /\ lookup w a (fst (K x)) (snd (K x)) = Some (n + j) /\ nth_error (w_heap w) (n + j) = Some o /\ o_adapter o = Some a /\ made_from cs rows x o.
  Proof.
    intros I. apply In_nth_error in I as (j & J). destruct ST as (d & A & B & _ & _ & _ & IJ & _). destruct (IJ j x J) as (G & o & H & Ao & M). exists j, o.
    split; [exact J|]. split; [unfold lookup; rewrite A, B; exact G|]. auto.
  Qed.
  Lemma st_keyed : keyed w a.
  Proof.
    intros t u r L. destruct (st_lookup t u r L) as (j & y & o & J & E & _ & H & _ & M). pose proof (nth_error_In _ _ J) as I. exists o. split; [exact H|].
    destruct (made_key cs rows y o (good_of y I) M) as (X & Y). rewrite E in X, Y. split; [exact X|]. split; [exact Y|].
    intros t' f If. destruct M as (c & _ & EC & _ & _ & _ & _ & MK). rewrite EC in If. rewrite (MK _ _ If). discriminate.
  Qed.
  Lemma st_read o : read w a o -> exists x, In x rows /\ made_from cs rows x o.
  Proof.
    intros R. destruct (read_local w a o st_local R) as (t & u & r & L & H). destruct (st_lookup t u r L) as (j & y & o' & J & _ & _ & H' & _ & M).
    exists y. split; [eapply nth_error_In; eauto|]. congruence.
  Qed.
  Lemma st_object x : In x rows -> exists o, read w a o /\ made_from cs rows x o.
  Proof.
    intros I. destruct (st_row x I) as (j & o & J & L & H & _ & M). exists o. split; [|exact M].
    apply (read_iff w a st_local st_keyed (K x) o). apply (stored_iff w a st_local). eauto.
  Qed.
  Lemma st_key o x k : In x rows -> made_from cs rows x o -> is_key o k -> K x = k.
  Proof.
    intros I M (T & U). destruct (made_key cs rows x o (good_of x I) M) as (T' & U'). rewrite T in T'. rewrite U in U'. injection U' as U'.
    symmetry. now apply injective_projections.
  Qed.
  Lemma st_is x o : In x rows -> made_from cs rows x o -> is_key o (K x).
  Proof. intros I M. apply (made_key cs rows); [now apply good_of|exact M]. Qed.
  Lemma row_before x p : In x rows -> r_parent x = Some p -> exists l y m c, rows = l ++ x :: m /\ In y l /\ K y = p /\ dget cs (r_type y) = Some c /\ In (r_type x) (map fst (c_children c)).
  Proof.
    intros I E. apply in_split in I as (l & m & ER). pose proof (da_parent _ _ _ DS l x m ER) as P. rewrite E in P. destruct P as (_ & y & c & P). exists l, y, m, c. tauto.
  Qed.
  Lemma st_listed p k : listed w a p k <-> exists x, In x rows /\ r_parent x = Some p /\ K x = k.
  Proof.
    split.
    - intros (o & R & IK & f & l & If & G & IL). destruct (st_read o R) as (y & Iy & M). pose proof (st_key o y p Iy M IK) as Ky.
      destruct M as (c & D & EC & _ & _ & _ & _ & MK). rewrite EC in If. rewrite (MK _ _ If) in G. injection G as <-. apply row_kids_In in IL as (x & Ix & Px & Kx).
      exists x. split; [exact Ix|]. split; [congruence|]. now destruct k.
    - intros (x & Ix & Px & Kx). destruct (row_before x p Ix Px) as (l & y & m & c & ER & Iy & Ky & Dy & Ch). assert (Iy' : In y rows) by (rewrite ER; apply in_app_iff; now left).
      destruct (st_object y Iy') as (o & R & M). exists o. split; [exact R|]. split; [rewrite <- Ky; now apply st_is|]. destruct M as (c' & D' & EC & _ & _ & _ & _ & MK). rewrite Dy in D'. injection D' as <-.
      apply in_map_iff in Ch as ([t f] & Et & Ch). cbn [fst] in Et. subst t. exists f, (row_kids cs rows (K y) (r_type x)). rewrite <- Kx. cbn [fst row_key]. rewrite EC.
      split; [exact Ch|]. split; [now apply MK|]. apply row_kids_In. exists x. rewrite Ky. auto.
  Qed.
  Lemma st_forest : forest w a tops.
  Proof.
    apply (local_forest w a st_local st_keyed).
    - intros p p' k L L'. apply st_listed in L as (x & I & P & E). apply st_listed in L' as (x' & I' & P' & E'). assert (x = x') by (apply key_fun; congruence). congruence.
    - intros p k L. apply st_listed in L as (x & I & P & E). apply in_split in I as (l & m & ER). pose proof (da_parent _ _ _ DS l x m ER) as Q. rewrite P in Q. rewrite <- E. exact (proj1 Q).
  Qed.
  Lemma row_kids_NoDup k t : NoDup (row_kids cs rows k t).
  Proof.
    pose proof (da_keys _ _ _ DS) as ND. clear ST DS. unfold row_kids. induction rows as [|x l IH]; [constructor|]. inversion ND as [|? ? NI ND']. subst. specialize (IH ND'). cbn [filter].
    destruct (is_parent k x && String.eqb (r_type x) t) eqn:B; [|exact IH]. cbn [map]. constructor; [|exact IH]. intros I. apply in_map_iff in I as (y & E & I). apply filter_In in I as (I & B').
    apply andb_true_iff in B as (_ & B). apply andb_true_iff in B' as (_ & B'). apply String.eqb_eq in B, B'. apply NI. apply in_map_iff. exists y. split; [|exact I].
    apply injective_projections; [cbn [row_key fst]; congruence|exact E].
  Qed.
  Lemma st_complete : complete w a tops.
  Proof.
    split.
    - intros p k L. apply st_listed in L as (x & I & _ & <-). destruct (st_row x I) as (j & o & _ & -> & _). discriminate.
    - intros k L. destruct (lookup w a (fst k) (snd k)) as [r|] eqn:E; [|congruence]. destruct (st_lookup _ _ _ E) as (j & x & o & J & Kx & _). pose proof (nth_error_In _ _ J) as I.
      rewrite <- surjective_pairing in Kx. pose proof I as I'. apply in_split in I as (l & m & ER). pose proof (da_parent _ _ _ DS l x m ER) as Q. destruct (r_parent x) as [p|] eqn:P.
      + right. exists p. apply st_listed. exists x. auto.
      + left. rewrite <- Kx. exact Q.
    - intros o t f l R If G. destruct (st_read o R) as (x & I & c & _ & EC & _ & _ & _ & _ & MK). rewrite EC in If. rewrite (MK _ _ If) in G. injection G as <-. apply row_kids_NoDup.
  Qed.
  Lemma st_rooted k o : read w a o -> is_key o k -> rooted w a tops k.
  Proof.
    intros R IK. destruct (st_read o R) as (x & I & M). rewrite <- (st_key o x k I M IK). clear o k R IK M.
    assert (X : forall j i y, i <= j -> nth_error rows i = Some y -> rooted w a tops (K y)).
    { intros j. induction j as [j IH] using lt_wf_ind. intros i y LE E. pose proof (nth_error_In _ _ E) as J. destruct (nth_error_split _ _ E) as (l & m & ER & LL). pose proof (da_parent _ _ _ DS l y m ER) as Q.
      destruct (r_parent y) as [p|] eqn:P.
      - destruct Q as (_ & z & c & Iz & Kz & _). apply root_kid with (p := p); [|apply st_listed; exists y; auto]. rewrite <- Kz. apply In_nth_error in Iz as (q & Eq).
        assert (q < length l) by (apply nth_error_Some; congruence). apply (IH q) with (i := q); [lia|lia|]. rewrite ER, nth_error_app1; auto.
      - destruct (st_row y J) as (j' & o & Ej & L & H & _ & M). destruct st_local as (ad' & d & A & B & N1 & N2).
        assert (RD : exists os, objs_all w a (r_type y) = Ok os /\ In o os).
        { unfold lookup in L. rewrite A, B in L. apply dget_Some_In in L.
          assert (X : forall rs, (forall r, In r rs -> exists u, In (u, r) (bucket d (r_type y))) -> exists os, Forall2 (fun r o => nth_error (w_heap w) r = Some o) rs os).
          { induction rs as [|r rs IHr]; intros HR; [exists []; constructor|]. destruct IHr as (os & F); [intros r' Ir; apply HR; now right|]. destruct (HR r) as (u & Iu); [now left|].
            assert (Lu : lookup w a (r_type y) u = Some r).
            { unfold lookup. rewrite A, B. apply In_dget; [|exact Iu]. unfold bucket in *. destruct (dget d (r_type y)) as [b|] eqn:G; [|destruct Iu]. apply (N2 (r_type y)). now apply dget_Some_In. }
            destruct (st_lookup _ _ _ Lu) as (_ & _ & o' & _ & _ & _ & H' & _). exists (o' :: os). constructor; auto. }
          destruct (X (dvals (bucket d (r_type y)))) as (os & F); [intros r Ir; unfold dvals in Ir; apply in_map_iff in Ir as ([u r'] & <- & Ir); eauto|].
          exists os. split; [apply (local_all w a (r_type y) os ad' d A B); exact F|].
          assert (Ir : In (n + j') (dvals (bucket d (r_type y)))) by (apply in_map_iff; eexists; split; [|exact L]; reflexivity). destruct (Forall2_in_l _ _ _ _ F Ir) as (o' & Io & Ho). congruence. }
        destruct RD as (os & RO & Io). apply root_top with (l := os) (o := o); auto. exact (st_is y o J M). }
    apply In_nth_error in I as (i & E). apply (X i i x); auto.
  Qed.
  Lemma st_unflagged : no_flags cs rows -> unflagged w a.
  Proof.
    intros NF o R. destruct (st_read o R) as (x & I & c & D & _ & EF & _). rewrite EF, (NF x c I D). auto.
  Qed.
  Lemma st_vals o x c f : In x rows -> made_from cs rows x o -> dget cs (r_type x) = Some c -> In f (c_identifiers c ++ c_attributes c) ->
    dget (o_vals o) f = value_in c (r_kw x) f.
  Proof.
    intros I (c' & D' & EC & _ & _ & _ & V & _) D If. rewrite D in D'. injection D' as <-. destruct (good_of x I) as (c' & D' & _ & CR & _). rewrite D in D'. injection D' as <-.
    apply V. apply in_app_iff in If as [If|If]; [now apply (cr_ids c CR)|now apply (cr_attrs c CR)].
  Qed.
  Lemma st_nodup o : read w a o -> NoDup (dkeys (o_vals o)).
  Proof.
    intros R. destruct (st_read o R) as (x & I & c & D & _ & _ & _ & EV & _). destruct (good_of x I) as (c' & D' & _ & CR & _). rewrite D in D'. injection D' as <-.
    unfold dkeys. rewrite EV. exact (cr_fields c CR).
  Qed.
  Lemma st_plain : proper_values cs rows -> plain_values w a.
  Proof.
    intros PV o R. split; [now apply st_nodup|]. intros k Ik. destruct (st_read o R) as (x & I & M). pose proof M as (c & D & EC & _). rewrite EC in Ik.
    rewrite (st_vals o x c k I M D Ik). exact (PV x c k I D Ik).
  Qed.
  Lemma st_attrs : attributes_set w a.
  Proof.
    intros o k R Ik. destruct (st_read o R) as (x & I & M). pose proof M as (c & D & EC & _). rewrite EC in Ik. destruct (good_of x I) as (c' & D' & _ & CR & RQ). rewrite D in D'. injection D' as <-.
    rewrite (st_vals o x c k I M D) by (apply in_app_iff; now right). destruct (value_there c (r_kw x) k RQ (cr_attrs c CR k Ik)) as (v & ->). discriminate.
  Qed.
  Lemma st_deep N : shallow cs rows N -> forall m k, deep w a m k -> m = 0 \/ m < N.
  Proof.
    intros (lv & LV) m k D. assert (X : forall m k, deep w a m k -> m = 0 \/ lv k + m < N).
    { clear m k D. induction m as [|m IH]; intros k D; [now left|]. right. destruct D as (k' & CO & D).
      assert (L : listed w a k k').
      { destruct CO as (r & o & f & l & Lk & H & If & G & IL & _). exists o. destruct (proj2 (read_iff w a st_local st_keyed k o)) as (R & IK); [apply (stored_iff w a st_local); eauto|].
        split; [exact R|]. split; [exact IK|]. exists f, l. auto. }
      apply st_listed in L as (x & I & P & <-). destruct (LV x I) as (LT & PR). specialize (PR k P). destruct (IH _ D) as [->|]; lia. }
    destruct (X m k D); [now left|right; lia].
  Qed.
  Lemma st_line N : shallow cs rows N -> forall m k, line w a m k -> m = 0 \/ m < N.
  Proof.
    intros (lv & LV) m k D. assert (X : forall m k, line w a m k -> m = 0 \/ (m <= lv k /\ lv k < N)).
    { clear m k D. induction m as [|m IH]; intros k D; [now left|]. right. destruct D as (p & L & D). apply st_listed in L as (x & I & P & <-). destruct (LV x I) as (LT & PR). specialize (PR p P).
      destruct (IH _ D) as [->|[]]; lia. }
    destruct (X m k D) as [|[]]; [now left|right; lia].
  Qed.
  Lemma st_by t us : (forall u, In u us -> exists x, In x rows /\ K x = (t, u)) -> exists l, objs_by w a us t = Ok l.
  Proof.
    intros H. assert (X : exists l, Forall2 (fun u o => exists r, lookup w a t u = Some r /\ nth_error (w_heap w) r = Some o) us l).
    { induction us as [|u us IH]; [exists []; constructor|]. destruct IH as (l & F); [intros v Iv; apply H; now right|]. destruct (H u) as (x & I & E); [now left|].
      destruct (st_row x I) as (j & o & _ & L & Hh & _). rewrite E in L. exists (o :: l). constructor; eauto. }
    destruct X as (l & F). exists l. apply local_by; [destruct st_local as (ad' & d & A & B & _); eauto|exact F].
  Qed.
End One.

(** ** Loading *)
Lemma inv_stands w a ad rows w' : nth_error (w_ads w) a = Some ad -> inv w a ad rows w' ->
  exists d, stands w' a (set_ad_store ad (SLocal d)) (length (w_heap w)) rows /\
    w_ads w' = list_set (w_ads w) a (set_ad_store ad (SLocal d)).
Proof.
  intros AD (d & EA & _ & _ & EL & _ & N1 & N2 & IJ & IB). exists d. split; [|auto]. exists d. split; [rewrite EA; eapply nth_list_set_eq; eauto|]. split; [reflexivity|].
  split; [lia|]. auto.
Qed.
Lemma inv_others w a ad rows w' b adb n rowsb : inv w a ad rows w' -> a <> b -> stands w b adb n rowsb -> stands w' b adb n rowsb.
Proof.
  intros (d & EA & _ & _ & EL & EH & _) NE (d' & A & B & LE & N1 & N2 & IJ & IB). exists d'. split; [rewrite EA, nth_list_set_neq; auto|]. split; [exact B|]. split; [lia|].
  split; [exact N1|]. split; [exact N2|]. split; [|exact IB]. intros j y J. destruct (IJ j y J) as (G & o & H & R). split; [exact G|]. exists o. split; [|exact R].
  rewrite EH; [exact H|]. apply nth_error_Some. congruence.
Qed.
Lemma inv_refs w a ad rows w' : nth_error (w_ads w) a = Some ad -> inv w a ad rows w' -> w_ok w -> w_ok w'.
Proof.
  intros AD (d & EA & _ & _ & EL & EH & N1 & N2 & IJ & IB) OK b adb db m bk u r A B Im Iu. rewrite EA, nth_list_set in A. destruct (Nat.eqb_spec b a) as [->|NE].
  - destruct (Nat.ltb a (length (w_ads w))); [|discriminate]. injection A as <-. cbn [ad_store set_ad_store] in B. injection B as <-.
    assert (G : dget (bucket d m) u = Some r). { unfold bucket. rewrite (In_dget _ _ _ N1 Im). apply In_dget; [exact (N2 _ _ Im)|exact Iu]. }
    destruct (IB _ _ _ G) as (j & y & J & E). destruct (IJ j y J) as (G' & _). rewrite E in G'. cbn [fst snd] in G'. rewrite G in G'. injection G' as ->.
    assert (j < length rows) by (apply nth_error_Some; congruence). lia.
  - pose proof (OK b adb db m bk u r A B Im Iu). lia.
Qed.
Lemma stands_filled w a ad n rows : stands w a ad n rows -> filled w a (ad_classes ad) rows.
Proof.
  intros ST. split.
  - intros x I. apply In_nth_error in I as (j & J). destruct ST as (d & A & B & _ & _ & _ & IJ & _). destruct (IJ j x J) as (G & o & H & Ao & M). exists (n + j), o.
    split; [unfold lookup; rewrite A, B; exact G|auto].
  - intros k L. destruct (lookup w a (fst k) (snd k)) as [r|] eqn:E; [|congruence]. destruct (st_lookup w a ad n rows ST _ _ _ E) as (j & y & o & J & Ky & _).
    exists y. split; [eapply nth_error_In; eauto|]. now rewrite Ky, <- surjective_pairing.
Qed.

(** ** Two adapters *)
Section Two.
  Variables (w : world) (fuel : nat) (src dst : aid) (sa da : adapter) (n n' : nat) (rows rows' : list row).
  Hypothesis NE : src <> dst.
  Hypothesis OK : w_ok w.
  Hypothesis ST : stands w src sa n rows.
  Hypothesis ST' : stands w dst da n' rows'.
  Hypothesis AP : n + length rows <= n' \/ n' + length rows' <= n.
  Notation cs := (ad_classes sa).
  Notation cs' := (ad_classes da).
  Hypothesis DS : dataset cs (ad_top sa) rows.
  Hypothesis DS' : dataset cs' (ad_top da) rows'.
  Hypothesis MA : matching cs cs' rows rows'.
  Hypothesis PV : proper_values cs rows.
  Hypothesis TN : NoDup (ad_top da).
  Hypothesis TT : forall t, In t (ad_top sa) <-> In t (ad_top da).
  Hypothesis F2 : 2 <= fuel.
  Hypothesis SH : shallow cs rows (fuel - 1).
  Hypothesis SH' : shallow cs' rows' (fuel - 1).

  Let LS := st_local w src sa n rows ST.
  Let LD := st_local w dst da n' rows' ST'.

  Lemma rows_alike : alike w fuel src dst sa da.
  Proof.
    pose proof ST as (d & A & B & _). pose proof ST' as (d' & A' & B' & _).
    split; [exact NE|exact OK| |exact A|exact A'|exact LD|now apply (st_keyed w dst da n' rows' (ad_top da))|exact TN|now apply (st_forest w src sa n rows)|now apply (st_forest w dst da n' rows')|now apply (st_complete w dst da n' rows')| | | |].
    - split.
      + assert (X : forall v b adb nb rb r, stands v b adb nb rb -> holds v b r -> nb <= r < nb + length rb).
        { intros v b adb nb rb r S0 (ad0 & d0 & t & u & (A0 & B0) & I). assert (L : lookup v b t u = Some r).
          { unfold lookup. rewrite A0, B0. apply In_dget; [|exact I]. eapply bucket_NoDup; [exact (st_local v b adb nb rb S0)|exact A0|exact B0]. }
          destruct (st_lookup v b adb nb rb S0 _ _ _ L) as (j & y & o & J & _ & -> & _). assert (j < length rb) by (apply nth_error_Some; congruence). lia. }
        intros r H1 H2. pose proof (X _ _ _ _ _ _ ST H1). pose proof (X _ _ _ _ _ _ ST' H2). lia.
      + intros i j (ad0 & A0 & B0) _. congruence.
    - split.
      + intros p p' k L L'. apply (st_listed w src sa n rows (ad_top sa) ST DS) in L as (x & I & P & E). apply (st_listed w dst da n' rows' (ad_top da) ST' DS') in L' as (y & J & P' & E').
        assert (r_parent x = r_parent y) by (apply (ma_place _ _ _ _ MA); congruence). congruence.
      + intros p k L I. apply (fo_top _ _ _ (st_forest w src sa n rows (ad_top sa) ST DS) p k L). now apply TT.
    - intros o [R|R].
      + destruct (st_read w src sa n rows ST o R) as (x & I & M). pose proof M as (c & D & EC & _). destruct (ma_class _ _ _ _ MA x c I D) as (c' & D' & N & SS & CR).
        rewrite (made_type cs rows x o (good_of sa rows (ad_top sa) DS x I) M). exists c'. rewrite EC. auto.
      + destruct (st_read w dst da n' rows' ST' o R) as (x & I & M). pose proof M as (c & D & EC & _). destruct (good_of da rows' (ad_top da) DS' x I) as (c' & D' & N & CR & _). rewrite D in D'. injection D' as <-.
        rewrite (made_type cs' rows' x o (good_of da rows' (ad_top da) DS' x I) M). exists c. rewrite EC. split; [exact D|]. split; [exact N|]. split; [repeat split|exact CR].
    - now apply (st_plain w src sa n rows (ad_top sa)).
    - intros k D. destruct (st_deep w dst da n' rows' (ad_top da) ST' DS' _ SH' _ _ D); lia.
  Qed.

  (** the record of an object of one of the adapters *)
  Definition all : list (dict cls * row) := map (fun x => (cs, x)) rows ++ map (fun x => (cs', x)) rows'.
  Lemma of_either o : read w src o \/ read w dst o -> exists q, In q all /\ is_key o (row_key (fst q) (snd q)) /\ get_shortname o = Ok (row_name (fst q) (snd q)).
  Proof.
    intros [R|R].
    - destruct (st_read w src sa n rows ST o R) as (x & I & M). exists (cs, x). split; [apply in_app_iff; left; now apply (in_map (fun x => (cs, x)))|]. cbn [fst snd].
      split; [now apply (made_key cs rows), M; apply (good_of sa rows (ad_top sa))|]. apply (made_name cs rows); [now apply (good_of sa rows (ad_top sa))|exact M].
    - destruct (st_read w dst da n' rows' ST' o R) as (x & I & M). exists (cs', x). split; [apply in_app_iff; right; now apply (in_map (fun x => (cs', x)))|]. cbn [fst snd].
      split; [now apply (made_key cs' rows'), M; apply (good_of da rows' (ad_top da))|]. apply (made_name cs' rows'); [now apply (good_of da rows' (ad_top da))|exact M].
  Qed.
  Lemma key_same o k k' : is_key o k -> is_key o k' -> k = k'.
  Proof. intros (A & B) (A' & B'). apply injective_projections; congruence. Qed.
  Lemma all_in q : In q all -> (In (snd q) rows /\ fst q = cs) \/ (In (snd q) rows' /\ fst q = cs').
  Proof. intros I. apply in_app_iff in I as [I|I]; apply in_map_iff in I as (x & <- & I); auto. Qed.
  Lemma all_parent q q' : In q all -> In q' all -> row_key (fst q) (snd q) = row_key (fst q') (snd q') -> r_parent (snd q) = r_parent (snd q').
  Proof.
    intros I I' E. destruct (all_in q I) as [(J & Eq)|(J & Eq)], (all_in q' I') as [(J' & Eq')|(J' & Eq')]; rewrite Eq, Eq' in E.
    - f_equal. now apply (key_fun sa rows (ad_top sa) DS).
    - now apply (ma_place _ _ _ _ MA).
    - symmetry. now apply (ma_place _ _ _ _ MA).
    - f_equal. now apply (key_fun da rows' (ad_top da) DS').
  Qed.
  Lemma all_listed p k : listed w src p k \/ listed w dst p k -> exists q, In q all /\ r_parent (snd q) = Some p /\ row_key (fst q) (snd q) = k.
  Proof.
    intros [L|L].
    - apply (st_listed w src sa n rows (ad_top sa) ST DS) in L as (x & I & P & E). exists (cs, x). split; [apply in_app_iff; left; now apply (in_map (fun x => (cs, x)))|auto].
    - apply (st_listed w dst da n' rows' (ad_top da) ST' DS') in L as (x & I & P & E). exists (cs', x). split; [apply in_app_iff; right; now apply (in_map (fun x => (cs', x)))|auto].
  Qed.
  Lemma all_top q : In q all -> In (r_type (snd q)) (ad_top sa) -> In (r_type (snd q)) (ad_top da) -> r_parent (snd q) = None.
  Proof.
    intros I T T'. destruct (r_parent (snd q)) as [p|] eqn:P; [|reflexivity]. exfalso. destruct (all_in q I) as [(J & _)|(J & _)]; apply in_split in J as (l & m & ER).
    - pose proof (da_parent _ _ _ DS l _ m ER) as Q. rewrite P in Q. now apply (proj1 Q).
    - pose proof (da_parent _ _ _ DS' l _ m ER) as Q. rewrite P in Q. now apply (proj1 Q).
  Qed.

  Lemma rows_comparable : comparable w fuel src dst sa da.
  Proof.
    split.
    - intros o R. destruct (of_either o R) as (q & _ & (_ & U) & N). eauto.
    - intros s d k R R' IK IK'. destruct (st_read w src sa n rows ST s R) as (x & I & M). destruct (st_read w dst da n' rows' ST' d R') as (y & J & M').
      pose proof (st_key sa rows (ad_top sa) DS s x k I M IK) as Kx. pose proof (st_key da rows' (ad_top da) DS' d y k J M' IK') as Ky.
      pose proof M as (c & D & EC & _). pose proof M' as (c' & D' & EC' & _). assert (TE : r_type x = r_type y) by (rewrite <- Ky in Kx; now injection Kx).
      destruct (ma_class _ _ _ _ MA x c I D) as (c2 & D2 & _ & (SI & SS & SA & SC) & CR2). rewrite TE, D' in D2. injection D2 as <-.
      destruct (good_of sa rows (ad_top sa) DS x I) as (c2 & D2 & _ & CR & RQ). rewrite D in D2. injection D2 as <-.
      assert (EV : forall f, In f (c_identifiers (o_cls s)) -> dget (o_vals d) f = dget (o_vals s) f).
      { intros f If. rewrite EC in If. rewrite (st_vals sa rows (ad_top sa) DS s x c f I M D) by (apply in_app_iff; now left).
        rewrite (st_vals da rows' (ad_top da) DS' d y c' f J M' D') by (apply in_app_iff; left; rewrite SI; exact If).
        symmetry. apply (ma_same _ _ _ _ MA x y c c' f); auto. congruence. }
      split.
      + symmetry. apply shortname_agree; rewrite ?EC, ?EC'; auto; [apply (cr_short c CR)|]. rewrite <- EC. exact EV.
      + apply ids_agree; [now apply (st_nodup w src sa n rows (ad_top sa))|now apply (st_nodup w dst da n' rows' (ad_top da))|rewrite EC, EC'; auto|exact EV|].
        intros f If. rewrite EC in If. assert (If' : In f (c_identifiers c ++ c_attributes c)) by (apply in_app_iff; now left). rewrite (st_vals sa rows (ad_top sa) DS s x c f I M D If'). exact (PV x c f I D If').
    - intros o o' k k' R R' IK IK' ET EN H. destruct (of_either o R) as (q & Iq & Kq & Nq). destruct (of_either o' R') as (q' & Iq' & Kq' & Nq').
      assert (E1 : row_key (fst q) (snd q) = k) by (eapply key_same; eauto). assert (E2 : row_key (fst q') (snd q') = k') by (eapply key_same; eauto).
      rewrite <- E1, <- E2. assert (ET' : r_type (snd q) = r_type (snd q')) by (rewrite <- E1, <- E2 in ET; exact ET). apply (ma_names _ _ _ _ MA); auto; [|congruence].
      destruct H as [(T & T')|(p & L & L')].
      + rewrite <- E1 in T, T'. cbn [row_key fst] in T, T'. rewrite (all_top q Iq T T'). symmetry. apply (all_top q' Iq'); rewrite <- ET'; auto.
      + destruct (all_listed p k L) as (z & Iz & Pz & Kz). destruct (all_listed p k' L') as (z' & Iz' & Pz' & Kz').
        rewrite (all_parent q z Iq Iz) by congruence. rewrite (all_parent q' z' Iq' Iz') by congruence. congruence.
    - intros o t f [R|R] If.
      + destruct (st_read w src sa n rows ST o R) as (x & I & c & D & EC & _ & _ & _ & _ & MK). rewrite EC in If. rewrite (MK _ _ If). discriminate.
      + destruct (st_read w dst da n' rows' ST' o R) as (x & I & c & D & EC & _ & _ & _ & _ & MK). rewrite EC in If. rewrite (MK _ _ If). discriminate.
    - intros t _. pose proof ST as (d & A & B & _). now apply (all_reads w src sa d t).
    - intros o t f us R If G. destruct (st_read w src sa n rows ST o R) as (x & I & c & D & EC & _ & _ & _ & _ & MK). rewrite EC in If. rewrite (MK _ _ If) in G. injection G as <-.
      apply (st_by w src sa n rows ST). intros u Iu. apply row_kids_In in Iu as (z & Iz & _ & Kz). eauto.
    - intros a k [->| ->] L.
      + destruct (st_line w src sa n rows (ad_top sa) ST DS _ SH _ _ L); lia.
      + destruct (st_line w dst da n' rows' (ad_top da) ST' DS' _ SH' _ _ L); lia.
  Qed.

  Lemma rows_entire flags : N.testbit flags 1 = false -> N.testbit flags 2 = false -> no_flags cs rows -> no_flags cs' rows' -> entire w flags src dst sa da.
  Proof.
    intros B1 B2 NF NF'. split; [auto|now apply (st_unflagged w src sa n rows)|now apply (st_unflagged w dst da n' rows')|exact TT| |now apply (st_attrs w dst da n' rows' (ad_top da))].
    intros o k. now apply (st_rooted w src sa n rows (ad_top sa)).
  Qed.

  (** a copy of the first adapter has the data of its records *)
  Lemma copy_data w' : holds_copy w src w' dst -> local_ok w' dst -> keyed w' dst -> has_data w' dst cs rows.
  Proof.
    intros (H1 & H2) LO KY. split.
    - intros x c I D. destruct (st_object w src sa n rows (ad_top sa) ST DS x I) as (s & R & M). pose proof (st_is sa rows (ad_top sa) DS x s I M) as IK.
      destruct (H1 s _ R IK) as (o & R' & IK' & ET & _ & DI & AT & CH). pose proof M as (c' & D' & EC & _ & _ & _ & _ & MK). rewrite D in D'. injection D' as <-.
      assert (X : In (row_key cs x, o) (stored_objs w' dst)) by (apply (read_iff w' dst LO KY); auto). apply (stored_iff w' dst LO) in X as (r & L & Hh).
      exists r, o. split; [exact L|]. split; [exact Hh|]. split; [exact (proj1 IK')|]. split.
      + intros f If. pose proof (st_vals sa rows (ad_top sa) DS s x c f I M D If) as V. apply in_app_iff in If as [If|If].
        * destruct (PV x c f I D) as (v & Vv & _); [apply in_app_iff; now left|]. unfold dict_eq in DI. apply andb_true_iff in DI as (_ & DI). rewrite forallb_forall in DI.
          assert (Iv : In (f, v) (get_identifiers s)).
          { apply dget_Some_In. unfold get_identifiers. rewrite dget_dump, EC. apply smem_In in If. rewrite If. congruence. }
          specialize (DI _ Iv). cbn [fst snd] in DI. destruct (dget (get_identifiers o) f) as [v'|] eqn:G; [|discriminate]. unfold get_identifiers in G. rewrite dget_dump in G.
          destruct (smem f (c_identifiers (o_cls o))); [|discriminate]. exists v, v'. auto.
        * destruct (AT f) as (v & v' & G & G' & Q); [now rewrite EC|]. exists v, v'. rewrite <- V. auto.
      + intros t f If. destruct (CH t f (row_kids cs rows (row_key cs x) t)) as (l & G & ND & EQ); [now rewrite EC|now apply MK|]. exists l. split; [exact G|].
        apply NoDup_Permutation; [exact ND|apply (row_kids_NoDup sa rows (ad_top sa)); exact DS|exact EQ].
    - intros k L. destruct (lookup w' dst (fst k) (snd k)) as [r|] eqn:E; [|congruence]. destruct (KY _ _ _ E) as (o & Hh & T & U & _).
      destruct (proj2 (read_iff w' dst LO KY k o)) as (R & IK); [apply (stored_iff w' dst LO); eauto|]. destruct (H2 o k R IK) as (s & Rs & Ks).
      destruct (st_read w src sa n rows ST s Rs) as (x & I & M). exists x. split; [exact I|]. eapply (st_key sa rows (ad_top sa)); eauto.
  Qed.
End Two.
