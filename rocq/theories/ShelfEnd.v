(** * ShelfEnd: a RedisStore filled from records is a source like any other. *)
From Verif Require Export ShelfFacts.
From Verif Require Import DataOrder DifferMore.
From Coq Require Import Ascii String List.
Import ListNotations.
Open Scope string_scope.
Open Scope list_scope.

(** What the adapter reads are the objects of the records, whose classes are those of [la] *)
Record shows (w : world) (a : aid) (la : adapter) (tops : list string) (rows : list row) : Prop := mkShows {
  sw_read : forall o, read w a o -> exists x, In x rows /\ made_from (ad_classes la) rows x o;
  sw_object : forall x, In x rows -> exists o, read w a o /\ made_from (ad_classes la) rows x o;
  sw_single : forall o o' x, read w a o -> read w a o' -> In x rows -> made_from (ad_classes la) rows x o -> made_from (ad_classes la) rows x o' -> o = o';
  sw_filed : filed w a tops;
  sw_ids : forall us t l, asked w a tops t -> objs_by w a us t = Ok l -> map get_unique_id l = map Ok us;
  sw_all : forall t, In t tops -> exists l, objs_all w a t = Ok l /\
    forall x, In x rows -> r_type x = t -> exists o, In o l /\ made_from (ad_classes la) rows x o;
  sw_by : forall t us, (forall u, In u us -> exists x, In x rows /\ row_key (ad_classes la) x = (t, u)) -> exists l, objs_by w a us t = Ok l
}.

Section One.
  Variables (w : world) (a : aid) (la : adapter) (tops : list string) (rows : list row).
  Hypothesis SW : shows w a la tops rows.
  Notation cs := (ad_classes la).
  Notation K := (row_key cs).
  Hypothesis DS : dataset cs tops rows.

  Lemma sh_listed p k : listed w a p k <-> exists x, In x rows /\ r_parent x = Some p /\ K x = k.
  Proof.
    split.
    - intros (o & R & IK & f & l & If & G & IL). destruct (sw_read _ _ _ _ _ SW o R) as (y & Iy & M). pose proof (st_key la rows tops DS o y p Iy M IK) as Ky.
      destruct M as (c & D & EC & _ & _ & _ & _ & MK). rewrite EC in If. rewrite (MK _ _ If) in G. injection G as <-. apply row_kids_In in IL as (x & Ix & Px & Kx).
      exists x. split; [exact Ix|]. split; [congruence|]. now destruct k.
    - intros (x & Ix & Px & Kx). destruct (row_before la rows tops DS x p Ix Px) as (l & y & m & c & ER & Iy & Ky & Dy & Ch). assert (Iy' : In y rows) by (rewrite ER; apply in_app_iff; now left).
      destruct (sw_object _ _ _ _ _ SW y Iy') as (o & R & M). exists o. split; [exact R|]. split; [rewrite <- Ky; now apply (st_is la rows tops DS)|]. destruct M as (c' & D' & EC & _ & _ & _ & _ & MK). rewrite Dy in D'. injection D' as <-.
      apply in_map_iff in Ch as ([t f] & Et & Ch). cbn [fst] in Et. subst t. exists f, (row_kids cs rows (K y) (r_type x)). rewrite <- Kx. cbn [fst row_key]. rewrite EC.
      split; [exact Ch|]. split; [now apply MK|]. apply row_kids_In. exists x. rewrite Ky. auto.
  Qed.
  Lemma sh_forest : forest w a tops.
  Proof.
    split; [apply SW|apply (sw_ids _ _ _ _ _ SW)| | |].
    - intros o o' k R R' IK IK'. destruct (sw_read _ _ _ _ _ SW o R) as (x & I & M). destruct (sw_read _ _ _ _ _ SW o' R') as (x' & I' & M').
      pose proof (st_key la rows tops DS o x k I M IK) as E. pose proof (st_key la rows tops DS o' x' k I' M' IK') as E'.
      assert (x' = x) by (apply (key_fun la rows tops DS); congruence). subst x'. now apply (sw_single _ _ _ _ _ SW o o' x).
    - intros p p' k L L'. apply sh_listed in L as (x & I & P & E). apply sh_listed in L' as (x' & I' & P' & E'). assert (x = x') by (apply (key_fun la rows tops DS); congruence). congruence.
    - intros p k L. apply sh_listed in L as (x & I & P & E). apply in_split in I as (l & m & ER). pose proof (da_parent _ _ _ DS l x m ER) as Q. rewrite P in Q. rewrite <- E. exact (proj1 Q).
  Qed.
  Lemma sh_rooted k o : read w a o -> is_key o k -> rooted w a tops k.
  Proof.
    intros R IK. destruct (sw_read _ _ _ _ _ SW o R) as (x & I & M). rewrite <- (st_key la rows tops DS o x k I M IK). clear o k R IK M.
    assert (X : forall j i y, i <= j -> nth_error rows i = Some y -> rooted w a tops (K y)).
    { intros j. induction j as [j IH] using lt_wf_ind. intros i y LE E. pose proof (nth_error_In _ _ E) as J. destruct (nth_error_split _ _ E) as (l & m & ER & LL). pose proof (da_parent _ _ _ DS l y m ER) as Q.
      destruct (r_parent y) as [p|] eqn:P.
      - destruct Q as (_ & z & c & Iz & Kz & _). apply root_kid with (p := p); [|apply sh_listed; exists y; auto]. rewrite <- Kz. apply In_nth_error in Iz as (q & Eq).
        assert (q < length l) by (apply nth_error_Some; congruence). apply (IH q) with (i := q); [lia|lia|]. rewrite ER, nth_error_app1; auto.
      - destruct (sw_all _ _ _ _ _ SW (r_type y) Q) as (os & RO & H). destruct (H y J eq_refl) as (o & Io & M).
        apply root_top with (l := os) (o := o); auto. exact (st_is la rows tops DS y o J M). }
    apply In_nth_error in I as (i & E). apply (X i i x); auto.
  Qed.
  Lemma sh_unflagged : no_flags cs rows -> unflagged w a.
  Proof.
    intros NF o R. destruct (sw_read _ _ _ _ _ SW o R) as (x & I & c & D & _ & EF & _). rewrite EF, (NF x c I D). auto.
  Qed.
  Lemma sh_nodup o : read w a o -> NoDup (dkeys (o_vals o)).
  Proof.
    intros R. destruct (sw_read _ _ _ _ _ SW o R) as (x & I & c & D & _ & _ & _ & EV & _). destruct (good_of la rows tops DS x I) as (c' & D' & _ & CR & _). rewrite D in D'. injection D' as <-.
    unfold dkeys. rewrite EV. exact (cr_fields c CR).
  Qed.
  Lemma sh_plain : proper_values cs rows -> plain_values w a.
  Proof.
    intros PV o R. split; [now apply sh_nodup|]. intros k Ik. destruct (sw_read _ _ _ _ _ SW o R) as (x & I & M). pose proof M as (c & D & EC & _). rewrite EC in Ik.
    rewrite (st_vals la rows tops DS o x c k I M D Ik). exact (PV x c k I D Ik).
  Qed.
  Lemma sh_line N : shallow cs rows N -> forall m k, line w a m k -> m = 0 \/ m < N.
  Proof.
    intros (lv & LV) m k D. assert (X : forall m k, line w a m k -> m = 0 \/ (m <= lv k /\ lv k < N)).
    { clear m k D. induction m as [|m IH]; intros k D; [now left|]. right. destruct D as (p & L & D). apply sh_listed in L as (x & I & P & <-). destruct (LV x I) as (LT & PR). specialize (PR p P).
      destruct (IH _ D) as [->|[]]; lia. }
    destruct (X m k D) as [|[]]; [now left|right; lia].
  Qed.
End One.

(** ** Two adapters *)
Section Two.
  Variables (w : world) (fuel : nat) (src dst : aid) (sa la da : adapter) (n' : nat) (rows rows' : list row).
  Hypothesis NE : src <> dst.
  Hypothesis OK : w_ok w.
  Hypothesis HA : nth_error (w_ads w) src = Some sa.
  Hypothesis SN : share_nothing w src dst.
  Hypothesis SW : shows w src la (ad_top sa) rows.
  Hypothesis ST' : stands w dst da n' rows'.
  Notation cs := (ad_classes la).
  Notation cs' := (ad_classes da).
  Hypothesis DS : dataset cs (ad_top sa) rows.
  Hypothesis DS' : dataset cs' (ad_top da) rows'.
  Hypothesis MA : matching cs cs' rows rows'.
  Hypothesis PV : proper_values cs rows.
  Hypothesis TN : NoDup (ad_top da).
  Hypothesis TT : forall t, In t (ad_top sa) <-> In t (ad_top da).
  Hypothesis F2 : 2 <= fuel.
  Hypothesis SH : shallow cs rows (fuel - 1).
  Hypothesis SH' : shallow cs' rows' (fuel - 1).

  Let LD := st_local w dst da n' rows' ST'.

  Lemma shelf_alike : alike w fuel src dst sa da.
  Proof.
    pose proof ST' as (d' & A' & B' & _).
    split; [exact NE|exact OK|exact SN|exact HA|exact A'|exact LD|now apply (st_keyed w dst da n' rows' (ad_top da))|exact TN|exact (sh_forest w src la (ad_top sa) rows SW DS)|now apply (st_forest w dst da n' rows')|now apply (st_complete w dst da n' rows')| | | |].
    - split.
      + intros p p' k L L'. apply (sh_listed w src la (ad_top sa) rows SW DS) in L as (x & I & P & E). apply (st_listed w dst da n' rows' (ad_top da) ST' DS') in L' as (y & J & P' & E').
        assert (r_parent x = r_parent y) by (apply (ma_place _ _ _ _ MA); congruence). congruence.
      + intros p k L I. apply (fo_top _ _ _ (sh_forest w src la (ad_top sa) rows SW DS) p k L). now apply TT.
    - intros o [R|R].
      + destruct (sw_read _ _ _ _ _ SW o R) as (x & I & M). pose proof M as (c & D & EC & _). destruct (ma_class _ _ _ _ MA x c I D) as (c' & D' & N & SS & CR).
        rewrite (made_type cs rows x o (good_of la rows (ad_top sa) DS x I) M). exists c'. rewrite EC. auto.
      + destruct (st_read w dst da n' rows' ST' o R) as (x & I & M). pose proof M as (c & D & EC & _). destruct (good_of da rows' (ad_top da) DS' x I) as (c' & D' & N & CR & _). rewrite D in D'. injection D' as <-.
        rewrite (made_type cs' rows' x o (good_of da rows' (ad_top da) DS' x I) M). exists c. rewrite EC. split; [exact D|]. split; [exact N|]. split; [repeat split|exact CR].
    - exact (sh_plain w src la (ad_top sa) rows SW DS PV).
    - intros k D. destruct (st_deep w dst da n' rows' (ad_top da) ST' DS' _ SH' _ _ D); lia.
  Qed.

  Lemma of_either' o : read w src o \/ read w dst o -> exists q, In q (all la da rows rows') /\ is_key o (row_key (fst q) (snd q)) /\ get_shortname o = Ok (row_name (fst q) (snd q)).
  Proof.
    intros [R|R].
    - destruct (sw_read _ _ _ _ _ SW o R) as (x & I & M). exists (cs, x). split; [apply in_app_iff; left; now apply (in_map (fun x => (cs, x)))|]. cbn [fst snd].
      split; [now apply (made_key cs rows), M; apply (good_of la rows (ad_top sa))|]. apply (made_name cs rows); [now apply (good_of la rows (ad_top sa))|exact M].
    - destruct (st_read w dst da n' rows' ST' o R) as (x & I & M). exists (cs', x). split; [apply in_app_iff; right; now apply (in_map (fun x => (cs', x)))|]. cbn [fst snd].
      split; [now apply (made_key cs' rows'), M; apply (good_of da rows' (ad_top da))|]. apply (made_name cs' rows'); [now apply (good_of da rows' (ad_top da))|exact M].
  Qed.
  Lemma all_in' q : In q (all la da rows rows') -> (In (snd q) rows /\ fst q = cs) \/ (In (snd q) rows' /\ fst q = cs').
  Proof. intros I. apply in_app_iff in I as [I|I]; apply in_map_iff in I as (x & <- & I); auto. Qed.
  Lemma all_parent' q q' : In q (all la da rows rows') -> In q' (all la da rows rows') -> row_key (fst q) (snd q) = row_key (fst q') (snd q') -> r_parent (snd q) = r_parent (snd q').
  Proof.
    intros I I' E. destruct (all_in' q I) as [(J & Eq)|(J & Eq)], (all_in' q' I') as [(J' & Eq')|(J' & Eq')]; rewrite Eq, Eq' in E.
    - f_equal. now apply (key_fun la rows (ad_top sa) DS).
    - now apply (ma_place _ _ _ _ MA).
    - symmetry. now apply (ma_place _ _ _ _ MA).
    - f_equal. now apply (key_fun da rows' (ad_top da) DS').
  Qed.
  Lemma all_listed' p k : listed w src p k \/ listed w dst p k -> exists q, In q (all la da rows rows') /\ r_parent (snd q) = Some p /\ row_key (fst q) (snd q) = k.
  Proof.
    intros [L|L].
    - apply (sh_listed w src la (ad_top sa) rows SW DS) in L as (x & I & P & E). exists (cs, x). split; [apply in_app_iff; left; now apply (in_map (fun x => (cs, x)))|auto].
    - apply (st_listed w dst da n' rows' (ad_top da) ST' DS') in L as (x & I & P & E). exists (cs', x). split; [apply in_app_iff; right; now apply (in_map (fun x => (cs', x)))|auto].
  Qed.
  Lemma all_top' q : In q (all la da rows rows') -> In (r_type (snd q)) (ad_top sa) -> In (r_type (snd q)) (ad_top da) -> r_parent (snd q) = None.
  Proof.
    intros I T T'. destruct (r_parent (snd q)) as [p|] eqn:P; [|reflexivity]. exfalso. destruct (all_in' q I) as [(J & _)|(J & _)]; apply in_split in J as (l & m & ER).
    - pose proof (da_parent _ _ _ DS l _ m ER) as Q. rewrite P in Q. now apply (proj1 Q).
    - pose proof (da_parent _ _ _ DS' l _ m ER) as Q. rewrite P in Q. now apply (proj1 Q).
  Qed.

  Lemma shelf_comparable : comparable w fuel src dst sa da.
  Proof.
    split.
    - intros o R. destruct (of_either' o R) as (q & _ & (_ & U) & N). eauto.
    - intros s d k R R' IK IK'. destruct (sw_read _ _ _ _ _ SW s R) as (x & I & M). destruct (st_read w dst da n' rows' ST' d R') as (y & J & M').
      pose proof (st_key la rows (ad_top sa) DS s x k I M IK) as Kx. pose proof (st_key da rows' (ad_top da) DS' d y k J M' IK') as Ky.
      pose proof M as (c & D & EC & _). pose proof M' as (c' & D' & EC' & _). assert (TE : r_type x = r_type y) by (rewrite <- Ky in Kx; now injection Kx).
      destruct (ma_class _ _ _ _ MA x c I D) as (c2 & D2 & _ & (SI & SS & SA & SC) & CR2). rewrite TE, D' in D2. injection D2 as <-.
      destruct (good_of la rows (ad_top sa) DS x I) as (c2 & D2 & _ & CR & RQ). rewrite D in D2. injection D2 as <-.
      assert (EV : forall f, In f (c_identifiers (o_cls s)) -> dget (o_vals d) f = dget (o_vals s) f).
      { intros f If. rewrite EC in If. rewrite (st_vals la rows (ad_top sa) DS s x c f I M D) by (apply in_app_iff; now left).
        rewrite (st_vals da rows' (ad_top da) DS' d y c' f J M' D') by (apply in_app_iff; left; rewrite SI; exact If).
        symmetry. apply (ma_same _ _ _ _ MA x y c c' f); auto. congruence. }
      split.
      + symmetry. apply shortname_agree; rewrite ?EC, ?EC'; auto; [apply (cr_short c CR)|]. rewrite <- EC. exact EV.
      + apply ids_agree; [exact (sh_nodup w src la (ad_top sa) rows SW DS s R)|now apply (st_nodup w dst da n' rows' (ad_top da))|rewrite EC, EC'; auto|exact EV|].
        intros f If. rewrite EC in If. assert (If' : In f (c_identifiers c ++ c_attributes c)) by (apply in_app_iff; now left). rewrite (st_vals la rows (ad_top sa) DS s x c f I M D If'). exact (PV x c f I D If').
    - intros o o' k k' R R' IK IK' ET EN H. destruct (of_either' o R) as (q & Iq & Kq & Nq). destruct (of_either' o' R') as (q' & Iq' & Kq' & Nq').
      assert (E1 : row_key (fst q) (snd q) = k) by (eapply key_same; eauto). assert (E2 : row_key (fst q') (snd q') = k') by (eapply key_same; eauto).
      rewrite <- E1, <- E2. assert (ET' : r_type (snd q) = r_type (snd q')) by (rewrite <- E1, <- E2 in ET; exact ET). apply (ma_names _ _ _ _ MA); auto; [|congruence].
      destruct H as [(T & T')|(p & L & L')].
      + rewrite <- E1 in T, T'. cbn [row_key fst] in T, T'. rewrite (all_top' q Iq T T'). symmetry. apply (all_top' q' Iq'); rewrite <- ET'; auto.
      + destruct (all_listed' p k L) as (z & Iz & Pz & Kz). destruct (all_listed' p k' L') as (z' & Iz' & Pz' & Kz').
        rewrite (all_parent' q z Iq Iz) by congruence. rewrite (all_parent' q' z' Iq' Iz') by congruence. congruence.
    - intros o t f [R|R] If.
      + destruct (sw_read _ _ _ _ _ SW o R) as (x & I & c & D & EC & _ & _ & _ & _ & MK). rewrite EC in If. rewrite (MK _ _ If). discriminate.
      + destruct (st_read w dst da n' rows' ST' o R) as (x & I & c & D & EC & _ & _ & _ & _ & MK). rewrite EC in If. rewrite (MK _ _ If). discriminate.
    - intros t It. destruct (sw_all _ _ _ _ _ SW t It) as (l & E & _). eauto.
    - intros o t f us R If G. destruct (sw_read _ _ _ _ _ SW o R) as (x & I & c & D & EC & _ & _ & _ & _ & MK). rewrite EC in If. rewrite (MK _ _ If) in G. injection G as <-.
      apply (sw_by _ _ _ _ _ SW). intros u Iu. apply row_kids_In in Iu as (z & Iz & _ & Kz). eauto.
    - intros a k [->| ->] L.
      + destruct (sh_line w src la (ad_top sa) rows SW DS _ SH _ _ L); lia.
      + destruct (st_line w dst da n' rows' (ad_top da) ST' DS' _ SH' _ _ L); lia.
  Qed.

  Lemma shelf_entire flags : N.testbit flags 1 = false -> N.testbit flags 2 = false -> no_flags cs rows -> no_flags cs' rows' -> entire w flags src dst sa da.
  Proof.
    intros B1 B2 NF NF'. split; [auto|exact (sh_unflagged w src la (ad_top sa) rows SW NF)|now apply (st_unflagged w dst da n' rows')|exact TT| |now apply (st_attrs w dst da n' rows' (ad_top da))].
    intros o k. exact (sh_rooted w src la (ad_top sa) rows SW DS k o).
  Qed.

  (** a copy has the data of the records *)
  Lemma shelf_data w' : holds_copy w src w' dst -> local_ok w' dst -> keyed w' dst -> has_data w' dst cs rows.
  Proof.
    intros (H1 & H2) LO KY. split.
    - intros x c I D. destruct (sw_object _ _ _ _ _ SW x I) as (s & R & M). pose proof (st_is la rows (ad_top sa) DS x s I M) as IK.
      destruct (H1 s _ R IK) as (o & R' & IK' & ET & _ & DI & AT & CH). pose proof M as (c' & D' & EC & _ & _ & _ & _ & MK). rewrite D in D'. injection D' as <-.
      assert (X : In (row_key cs x, o) (stored_objs w' dst)) by (apply (read_iff w' dst LO KY); auto). apply (stored_iff w' dst LO) in X as (r & L & Hh).
      exists r, o. split; [exact L|]. split; [exact Hh|]. split; [exact (proj1 IK')|]. split.
      + intros f If. pose proof (st_vals la rows (ad_top sa) DS s x c f I M D If) as V. apply in_app_iff in If as [If|If].
        * destruct (PV x c f I D) as (v & Vv & _); [apply in_app_iff; now left|]. unfold dict_eq in DI. apply andb_true_iff in DI as (_ & DI). rewrite forallb_forall in DI.
          assert (Iv : In (f, v) (get_identifiers s)).
          { apply dget_Some_In. unfold get_identifiers. rewrite dget_dump, EC. apply smem_In in If. rewrite If. congruence. }
          specialize (DI _ Iv). cbn [fst snd] in DI. destruct (dget (get_identifiers o) f) as [v'|] eqn:G; [|discriminate]. unfold get_identifiers in G. rewrite dget_dump in G.
          destruct (smem f (c_identifiers (o_cls o))); [|discriminate]. exists v, v'. auto.
        * destruct (AT f) as (v & v' & G & G' & Q); [now rewrite EC|]. exists v, v'. rewrite <- V. auto.
      + intros t f If. destruct (CH t f (row_kids cs rows (row_key cs x) t)) as (l & G & ND & EQ); [now rewrite EC|now apply MK|]. exists l. split; [exact G|].
        apply NoDup_Permutation; [exact ND|apply (row_kids_NoDup la rows (ad_top sa)); exact DS|exact EQ].
    - intros k L. destruct (lookup w' dst (fst k) (snd k)) as [r|] eqn:E; [|congruence]. destruct (KY _ _ _ E) as (o & Hh & T & U & _).
      destruct (proj2 (read_iff w' dst LO KY k o)) as (R & IK); [apply (stored_iff w' dst LO); eauto|]. destruct (H2 o k R IK) as (s & Rs & Ks).
      destruct (sw_read _ _ _ _ _ SW s Rs) as (x & I & M). exists x. split; [exact I|]. eapply (st_key la rows (ad_top sa)); eauto.
  Qed.
End Two.

(** ** A filled RedisStore *)
Lemma glob_starts p q : literal p = true -> forall s, glob (p ++ q) s = true -> exists r, s = (p ++ r)%string.
Proof.
  induction p as [|c p IH]; intros L s G; [exists s; reflexivity|]. simpl in L. apply andb_prop in L as [L1 L2].
  change (String c p ++ q)%string with (String c (p ++ q)) in G. rewrite glob_cons in G.
  rewrite (special_not c "*"%char L1), (special_not c "?"%char L1), (special_not c "["%char L1), (special_not c "\"%char L1) in G by (simpl; auto).
  destruct s as [|d s]; [discriminate|]. apply andb_prop in G as [G1 G2]. apply Ascii.eqb_eq in G1 as <-. destruct (IH L2 s G2) as (r & ->). now exists r.
Qed.

Section Shelf.
  Variables (w0 w : world) (a : aid) (ad la : adapter) (i : string) (tops : list string) (rows : list row).
  Notation cs := (ad_classes la).
  Notation K := (row_key cs).
  Notation rk := (fun x => redis_key i (fst (K x)) (snd (K x))).
  Hypothesis HA : nth_error (w_ads w) a = Some ad.
  Hypothesis HS : ad_store ad = SRedis i.
  Hypothesis PI : plain i = true.
  Hypothesis PT : forall x, In x rows -> plain (r_type x) = true.
  Hypothesis PP : forall t, In t tops -> plain t = true.
  Hypothesis PC : forall x c t, In x rows -> dget cs (r_type x) = Some c -> In t (map fst (c_children c)) -> plain t = true.
  Hypothesis NONE : forall s, dget (w_redis w0) ("diffsync:" ++ i ++ ":" ++ s)%string = None.
  Hypothesis SV : shelved w0 i cs rows rows w.
  Hypothesis DS : dataset cs tops rows.

  Definition snap (x : row) (o : obj) : Prop := exists o1, dget (w_redis w) (rk x) = Some o1 /\ o = set_o_adapter o1 (Some a) /\ made_from cs rows x o.
  Lemma row_snap x : In x rows -> exists o, snap x o.
  Proof. intros I. destruct (proj1 SV x I) as (o & S1 & _ & M). exists (set_o_adapter o (Some a)), o. split; [exact S1|]. split; [reflexivity|now apply made_adapter]. Qed.
  Lemma snap_fun x o o' : snap x o -> snap x o' -> o = o'.
  Proof. intros (o1 & E & -> & _) (o2 & E2 & -> & _). congruence. Qed.
  Lemma own_key s o : dget (w_redis w) ("diffsync:" ++ i ++ ":" ++ s)%string = Some o -> exists x, In x rows /\ rk x = ("diffsync:" ++ i ++ ":" ++ s)%string.
  Proof.
    intros G. destruct (in_dec string_dec ("diffsync:" ++ i ++ ":" ++ s)%string (map rk rows)) as [I|NI]; [apply in_map_iff in I as (x & E & I); eauto|].
    exfalso. rewrite (proj1 (proj2 SV)), NONE in G; [discriminate|]. intros x I E. apply NI. rewrite E. apply (in_map rk); exact I.
  Qed.
  Lemma own_snap s o : dget (w_redis w) ("diffsync:" ++ i ++ ":" ++ s)%string = Some o -> exists x, In x rows /\ rk x = ("diffsync:" ++ i ++ ":" ++ s)%string /\ snap x (set_o_adapter o (Some a)).
  Proof.
    intros G. destruct (own_key s o G) as (x & I & E). exists x. split; [exact I|]. split; [exact E|]. destruct (row_snap x I) as (o' & o1 & G1 & -> & M). rewrite E, G in G1. injection G1 as <-.
    exists o. rewrite E. auto.
  Qed.
  Lemma by_one t u o : dget (w_redis w) (redis_key i t u) = Some o -> exists x, In x rows /\ rk x = redis_key i t u /\ snap x (set_o_adapter o (Some a)).
  Proof. unfold redis_key, store_label. rewrite !append_assoc. intros G. apply (own_snap (t ++ ":" ++ u)). exact G. Qed.
  Lemma all_of t l : objs_all w a t = Ok l -> forall o, In o l -> exists x, In x rows /\ glob (store_label i ++ ":" ++ t ++ ":*")%string (rk x) = true /\ snap x o.
  Proof.
    unfold objs_all. rewrite HA, HS. intros E o I. destruct (rmapM_In_iff _ _ _ _ E I) as (k & Ik & Ek). apply filter_In in Ik as (_ & Gk).
    destruct (dget (w_redis w) k) as [o1|] eqn:G; [|discriminate]. injection Ek as <-.
    destruct (glob_starts (store_label i ++ ":") (t ++ ":*")) with (s := k) as (r & ->).
    { unfold store_label. rewrite !literal_app, (plain_literal i PI). reflexivity. } { rewrite append_assoc. exact Gk. }
    unfold store_label in G. rewrite !append_assoc in G. destruct (own_snap r o1 G) as (x & J & E1 & SX). exists x. split; [exact J|]. split; [|exact SX].
    rewrite E1. unfold store_label in Gk. rewrite !append_assoc in Gk. exact Gk.
  Qed.
  Lemma by_of us t l : objs_by w a us t = Ok l -> Forall2 (fun u o => exists x, In x rows /\ rk x = redis_key i t u /\ snap x o) us l.
  Proof.
    unfold objs_by. destruct us as [|u us]; [intros E; injection E as <-; constructor|]. rewrite HA, HS. intros E. apply rmapM_Ok in E. revert E. apply Forall2_impl. intros v o E.
    destruct (dget (w_redis w) (redis_key i t v)) as [o1|] eqn:G; [|discriminate]. injection E as <-. now apply by_one.
  Qed.
  Lemma F2_right {A B} (P : A -> B -> Prop) l m y : Forall2 P l m -> In y m -> exists x, In x l /\ P x y.
  Proof. induction 1 as [|x z l m R F IH]; intros J; [destruct J|]. destruct J as [<-|J]; [exists x; split; [now left|exact R]|]. destruct (IH J) as (x' & I & Q). exists x'. split; [now right|exact Q]. Qed.
  Lemma read_snap o : read w a o -> exists x, In x rows /\ snap x o.
  Proof.
    intros (t & l & I & [E|(us & E)]).
    - destruct (all_of t l E o I) as (x & J & _ & SX). eauto.
    - apply by_of in E. destruct (F2_right _ _ _ _ E I) as (u & _ & x & J & _ & SX). eauto.
  Qed.
  Lemma snap_read x o : In x rows -> snap x o -> read w a o.
  Proof.
    intros I (o1 & G & -> & _). exists (fst (K x)), [set_o_adapter o1 (Some a)]. split; [now left|]. right. exists [snd (K x)]. unfold objs_by. rewrite HA, HS. cbn [rmapM]. rewrite G. reflexivity.
  Qed.
  Lemma asked_plain t : asked w a tops t -> plain t = true.
  Proof.
    intros [I|(o & f & R & I)]; [now apply PP|]. destruct (read_snap o R) as (x & J & o1 & _ & _ & c & D & EC & _). rewrite EC in I.
    apply (PC x c t J D). apply in_map_iff. exists (t, f). auto.
  Qed.
  Lemma same_key x t u : In x rows -> plain t = true -> rk x = redis_key i t u -> K x = (t, u).
  Proof. intros I P E. apply key_inj in E as (_ & E1 & E2); auto; [|now apply PT]. now apply injective_projections. Qed.
  Lemma keys_glob t x : plain t = true -> In x rows -> glob (store_label i ++ ":" ++ t ++ ":*")%string (rk x) = true -> r_type x = t.
  Proof. intros P I G. cbv beta in G. rewrite match_type in G; auto; [|now apply PT]. apply andb_true_iff in G as (_ & G). apply String.eqb_eq in G. cbn [row_key fst] in G. congruence. Qed.

  Lemma shelf_shows : shows w a la tops rows.
  Proof.
    split.
    - intros o R. destruct (read_snap o R) as (x & I & o1 & _ & _ & M). eauto.
    - intros x I. destruct (row_snap x I) as (o & SX). exists o. split; [eapply snap_read; eauto|]. destruct SX as (o1 & _ & _ & M). exact M.
    - intros o o' x R R' I M M'. destruct (read_snap o R) as (y & J & SY). destruct (read_snap o' R') as (z & Jz & SZ).
      pose proof SY as (o1 & _ & _ & My). pose proof SZ as (o2 & _ & _ & Mz).
      assert (y = x). { apply (key_fun la rows tops DS); auto. apply (st_key la rows tops DS o y); auto. now apply (st_is la rows tops DS). }
      assert (z = x). { apply (key_fun la rows tops DS); auto. apply (st_key la rows tops DS o' z); auto. now apply (st_is la rows tops DS). }
      subst y z. exact (snap_fun x o o' SY SZ).
    - split.
      + intros t l o AK E I. destruct (all_of t l E o I) as (x & J & G & o1 & _ & _ & M). rewrite (made_type cs rows x o (good_of la rows tops DS x J) M). apply keys_glob; auto. now apply asked_plain.
      + intros us t l o AK E I. apply by_of in E. destruct (F2_right _ _ _ _ E I) as (u & _ & x & J & EK & o1 & _ & _ & M).
        rewrite (made_type cs rows x o (good_of la rows tops DS x J) M). pose proof (same_key x t u J (asked_plain t AK) EK) as Kx. now injection Kx.
    - intros us t l AK E. apply by_of in E. pose proof (asked_plain t AK) as P. clear AK. induction E as [|u o us l (x & J & EK & o1 & _ & _ & M) F IH]; [reflexivity|]. cbn [map]. rewrite IH. f_equal.
      rewrite (made_uid cs rows x o (good_of la rows tops DS x J) M). f_equal. pose proof (same_key x t u J P EK) as Kx. rewrite Kx. reflexivity.
    - intros t It. assert (X : exists l, objs_all w a t = Ok l).
      { unfold objs_all. rewrite HA, HS. assert (Y : forall ks, (forall k, In k ks -> In k (dkeys (w_redis w))) -> exists l, rmapM (fun k => match dget (w_redis w) k with Some o => Ok (set_o_adapter o (Some a)) | None => Err ObjectNotFound end) ks = Ok l).
        { induction ks as [|k ks IH]; intros H; [exists []; reflexivity|]. destruct IH as (l & E); [intros k' I'; apply H; now right|].
          destruct (dget (w_redis w) k) as [o|] eqn:G; [|apply dget_None in G; elim G; apply H; now left]. exists (set_o_adapter o (Some a) :: l). cbn [rmapM]. rewrite G. cbn [rbind]. now rewrite E. }
        apply Y. intros k I. now apply filter_In in I. }
      destruct X as (l & E). exists l. split; [exact E|]. intros x I ET. destruct (row_snap x I) as (o & SX). exists o. pose proof SX as (o1 & G & EO & M). split; [|exact M].
      unfold objs_all in E. rewrite HA, HS in E. apply rmapM_Ok in E. assert (Ik : In (rk x) (filter (glob (store_label i ++ ":" ++ t ++ ":*")%string) (dkeys (w_redis w)))).
      { apply filter_In. split; [apply dget_Some_In in G; unfold dkeys; apply in_map_iff; eexists; split; [|exact G]; reflexivity|]. cbv beta. rewrite match_type; auto; [|now apply PT]. cbn [row_key fst]. now rewrite ET, !String.eqb_refl. }
      destruct (Forall2_in_l _ _ _ _ E Ik) as (o' & Io & Eo). rewrite G in Eo. injection Eo as <-. now subst o.
    - intros t us H. unfold objs_by. rewrite HA, HS. destruct us as [|u us]; [now exists []|]. revert H. generalize (u :: us). clear u us. intros us H.
      induction us as [|u us IH]; [exists []; reflexivity|]. destruct IH as (l & E); [intros v Iv; apply H; now right|]. destruct (H u) as (x & I & Kx); [now left|].
      destruct (row_snap x I) as (o & o1 & G & _). rewrite Kx in G. cbn [fst snd] in G. exists (set_o_adapter o1 (Some a) :: l). cbn [rmapM]. rewrite G. cbn [rbind]. now rewrite E.
  Qed.
  Lemma shelf_shares dst : local_ok w dst -> share_nothing w a dst.
  Proof.
    intros (db & d & A & B & _). split.
    - intros r (ad' & d' & t & u & (A' & B') & _). congruence.
    - intros x y _ (ad' & A' & B'). congruence.
  Qed.
End Shelf.

(** ** A second time *)
Lemma option_key_dec (p q : option (string * string)) : {p = q} + {p <> q}.
Proof. repeat decide equality. Qed.
Section Again.
  Variables (w : world) (a : aid) (ad : adapter) (i : string) (rows : list row) (tops : list string).
  Notation cs := (ad_classes ad).
  Notation K := (row_key cs).
  Hypothesis HS : ad_store ad = SRedis i.
  Hypothesis DS : dataset cs tops rows.
  Variable w1 : world.
  Hypothesis HA : nth_error (w_ads w1) a = Some ad.
  Hypothesis SV : shelved w i cs rows rows w1.

  (** a record that is tried again *)
  Lemma tried x w2 : In x rows -> w_ads w2 = w_ads w1 -> w_redis w2 = w_redis w1 -> exists w3 o e, w_ads w3 = w_ads w1 /\ w_redis w3 = w_redis w1 /\
    on_server w1 i (fst (K x)) (snd (K x)) = Some e /\ made_from cs rows x e /\ (forall f l, In (f, l) (o_kids o) -> l = []) /\
    keep_row a x w2 = if dump_eq e o then match r_parent x with
                                          | None => (w3, Ok tt)
                                          | Some p => keep_row a x w2
                                          end else (w3, Err ObjectAlreadyExists).
  Proof.
    intros I EA ER. destruct (good_of ad rows tops DS x I) as (c & D & MN & CR & RQ). destruct (proj1 SV x I) as (e & SE & _ & ME).
    destruct (RowFacts.inst_vals c (r_kw x) RQ (cr_fields c CR)) as (vals & EI & KV & VV).
    set (o0 := mkObj c vals (map (fun f => (f, [])) (c_kid_fields c)) (c_flags c) None StSuccess "") in *.
    set (w3 := set_heap w2 (w_heap w2 ++ [o0])). exists w3, o0, e. split; [exact EA|]. split; [exact ER|]. split; [exact SE|]. split; [exact ME|].
    split; [intros f l J; cbn [o0 o_kids] in J; apply in_map_iff in J as (g & E & _); congruence|].
    assert (X : exists o1, o1 = o0 /\ made_from cs [] x o1).
    { exists o0. split; [reflexivity|]. exists c. split; [exact D|]. do 3 (split; [reflexivity|]). split; [exact KV|]. split; [exact VV|]. intros t f J. cbn [o0 o_kids row_kids filter map].
      assert (Jf : In f (c_kid_fields c)) by (apply (cr_kids c CR); apply in_map_iff; exists (t, f); auto).
      clear - Jf. induction (c_kid_fields c) as [|g gs IH]; [destruct Jf|]. cbn [map dget]. destruct (String.eqb_spec f g); [reflexivity|]. apply IH. destruct Jf; [congruence|assumption]. }
    destruct X as (o1 & -> & M0). pose proof (made_uid cs [] x o0 (good_of ad rows tops DS x I) M0) as GU. assert (GT : get_type o0 = fst (K x)) by exact MN.
    assert (SA : st_add a (length (w_heap w2)) w3 = if dump_eq e o0 then (w3, Ok tt) else (w3, Err ObjectAlreadyExists)).
    { unfold st_add, bind, hget, get_state. cbn [w_heap w3 set_heap]. rewrite nth_error_app2, Nat.sub_diag by lia. cbn [nth_error]. unfold lift. rewrite GU. unfold get_adapter. cbn [w_ads w3 set_heap].
      rewrite EA, HA, HS. cbn [w_redis]. rewrite GT. change (w_redis w3) with (w_redis w2). rewrite ER. unfold on_server in SE. rewrite SE. destruct (dump_eq e o0); reflexivity. }
    destruct (r_parent x) as [p|] eqn:EP.
    - destruct (dump_eq e o0) eqn:DE; [reflexivity|]. unfold keep_row, bind, get_adapter. rewrite EA, HA, D. unfold lift at 1. rewrite EI. unfold halloc. fold w3. rewrite SA. reflexivity.
    - unfold keep_row, bind, get_adapter. rewrite EA, HA, D. unfold lift at 1. rewrite EI. unfold halloc. fold w3. rewrite SA. destruct (dump_eq e o0); [rewrite EP|]; reflexivity.
  Qed.
  Lemma kids_refuse x e o : In x rows -> made_from cs rows x e -> (forall f l, In (f, l) (o_kids o) -> l = []) -> (exists y, In y rows /\ r_parent y = Some (K x)) -> dump_eq e o = false.
  Proof.
    intros I (c & D & _ & _ & _ & _ & _ & MK) EM (y & J & P). destruct (row_before ad rows tops DS y (K x) J P) as (l & z & m & cz & ER & Iz & Kz & Dz & Ch).
    assert (z = x) by (apply (key_fun ad rows tops DS); auto; rewrite ER; apply in_app_iff; now left). subst z. rewrite D in Dz. injection Dz as <-.
    apply in_map_iff in Ch as ([t f] & Et & Ch). cbn [fst] in Et. subst t. specialize (MK _ _ Ch).
    assert (NK : row_kids cs rows (K x) (r_type y) <> []).
    { intros E. assert (J' : In (snd (K y)) (row_kids cs rows (K x) (r_type y))) by (apply row_kids_In; exists y; auto). rewrite E in J'. destruct J'. }
    destruct (dump_eq e o) eqn:DE; [|reflexivity]. exfalso. unfold dump_eq in DE. apply andb_true_iff in DE as (DE & _). apply andb_true_iff in DE as (_ & DE). rewrite forallb_forall in DE.
    specialize (DE _ (dget_Some_In _ _ _ MK)). cbn [fst snd] in DE. destruct (dget (o_kids o) f) as [l0|] eqn:G; [|discriminate]. pose proof (EM f l0 (dget_Some_In _ _ _ G)) as El. subst l0.
    destruct (list_eq_dec string_dec (row_kids cs rows (K x) (r_type y)) []); [contradiction|discriminate].
  Qed.
  Lemma again_rest m : forall l w2, rows = l ++ m -> w_ads w2 = w_ads w1 -> w_redis w2 = w_redis w1 -> (forall x y, In x l -> In y rows -> r_parent y <> Some (K x)) ->
    (exists y, In y rows /\ r_parent y <> None) -> exists w3, load_keeping a m w2 = (w3, Err ObjectAlreadyExists) /\ w_redis w3 = w_redis w1 /\ w_ads w3 = w_ads w1.
  Proof.
    induction m as [|x m IH]; intros l w2 ER EA EW NC (y & J & P).
    - exfalso. destruct (r_parent y) as [p|] eqn:EP; [|congruence]. destruct (row_before ad rows tops DS y p J EP) as (l1 & z & m1 & c & ER1 & Iz & Kz & _).
      apply (NC z y); [|exact J|congruence]. rewrite app_nil_r in ER. rewrite <- ER, ER1. apply in_app_iff. now left.
    - assert (I : In x rows) by (rewrite ER; apply in_app_iff; right; now left). destruct (tried x w2 I EA EW) as (w3 & o & e & A3 & R3 & SE & ME & EM & EK). cbn [load_keeping]. unfold bind.
      destruct (in_dec (option_key_dec) (Some (K x)) (map r_parent rows)) as [IP|NP].
      + apply in_map_iff in IP as (z & Pz & Iz). rewrite (kids_refuse x e o I ME EM) in EK by eauto. rewrite EK. exists w3. auto.
      + destruct (dump_eq e o) eqn:DE; [|rewrite EK; exists w3; auto]. destruct (r_parent x) as [p|] eqn:EP.
        * exfalso. destruct (row_before ad rows tops DS x p I EP) as (l1 & z & m1 & c & ER1 & Iz & Kz & _). apply (NC z x); [|exact I|congruence].
          assert (l1 = l); [|now subst]. pose proof (da_keys _ _ _ DS) as ND. clear - ER ER1 ND. rewrite ER in ER1. assert (NX : NoDup (l ++ x :: m)) by (rewrite ER in ND; now apply NoDup_map_inv in ND). clear ER ND.
          revert l1 ER1. induction l as [|u l IHl]; intros [|v l1] E; cbn [app] in *; [reflexivity| | |].
          -- injection E as <- E. inversion NX as [|? ? N _]. elim N. rewrite E. apply in_app_iff. right. now left.
          -- injection E as -> E. inversion NX as [|? ? N _]. elim N. apply in_app_iff. right. now left.
          -- injection E as -> E. inversion NX. f_equal. now apply IHl.
        * rewrite EK. apply (IH (l ++ [x])); [now rewrite <- app_assoc|exact A3|exact R3| |eauto].
          intros z z' Iz Jz. apply in_app_iff in Iz as [Iz|[<-|[]]]; [now apply NC|]. intros E. apply NP. apply in_map_iff. eauto.
  Qed.
End Again.
