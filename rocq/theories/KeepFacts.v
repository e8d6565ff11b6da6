(** * KeepFacts: edits that are written back, one at a time. *)
From Verif Require Export KeepSpec GiveFacts EditEnd ShelfEnd.
From Verif Require Import PropServe.

(** what a change of the RedisStore [i] leaves as it is *)
Definition beside (i : string) (w w' : world) : Prop :=
  w_ads w' = w_ads w /\ length (w_heap w) <= length (w_heap w') /\
  (forall r, r < length (w_heap w) -> nth_error (w_heap w') r = nth_error (w_heap w) r) /\
  (forall k, (forall s, k <> ("diffsync:" ++ i ++ ":" ++ s)%string) -> dget (w_redis w') k = dget (w_redis w) k) /\
  NoDup (dkeys (w_redis w')).

Lemma filter_same {A} (P Q : A -> bool) l : (forall x, In x l -> P x = Q x) -> filter P l = filter Q l.
Proof. induction l as [|x l IH]; intros H; [reflexivity|]. cbn [filter]. rewrite (H x) by now left. rewrite IH; [reflexivity|]. intros y I. apply H. now right. Qed.
Lemma filter_filter {A} (P Q : A -> bool) l : filter P (filter Q l) = filter (fun x => Q x && P x) l.
Proof. induction l as [|x l IH]; [reflexivity|]. cbn [filter]. destruct (Q x); cbn [filter andb]; rewrite IH; reflexivity. Qed.
Lemma prefix_app p s : String.prefix p (p ++ s) = true.
Proof. induction p as [|c p IH]; [now destruct s|]. cbn. destruct (Ascii.ascii_dec c c); [exact IH|congruence]. Qed.
Lemma prefix_split p : forall k, String.prefix p k = true -> exists s, k = (p ++ s)%string.
Proof.
  induction p as [|c p IH]; intros k E; [now exists k|]. destruct k as [|c' k]; [discriminate|]. cbn in E. destruct (Ascii.ascii_dec c c') as [->|]; [|discriminate]. destruct (IH k E) as (s & ->). now exists s.
Qed.

Section Cut.
  Variables (cs : dict cls) (tops : list string) (rows : list row).
  Hypothesis DS : dataset cs tops rows.
  Notation K := (row_key cs).
  Lemma cut_filter : forall l gone, NoDup (map K l) -> cut_rows cs gone l = filter (fun x => existsb (at_key (K x)) (map K (cut_rows cs gone l))) l.
  Proof.
    induction l as [|x l IH]; intros gone ND; [reflexivity|]. inversion ND as [|? ? NI ND']; subst. cbn [cut_rows].
    assert (NC : forall g, ~ In (K x) (map K (cut_rows cs g l))).
    { intros g I. apply NI. apply in_map_iff in I as (y & E & I). apply in_map_iff. exists y. split; [exact E|]. now apply (cut_nodup cs l g ND'). }
    destruct (existsb _ _ || _) eqn:B.
    - cbn [filter]. destruct (existsb (at_key (K x)) (map K (cut_rows cs (K x :: gone) l))) eqn:X; [|apply (IH (K x :: gone) ND')].
      apply gone_ok in X. now apply NC in X.
    - cbn [filter map existsb]. assert (E : at_key (K x) (K x) = true) by now apply at_key_ok. rewrite E. cbn [orb]. f_equal.
      rewrite (IH gone ND') at 1. apply filter_same. intros y I. assert (N : at_key (K y) (K x) = false); [|now rewrite N].
      apply at_key_no. intros Q. apply NI. rewrite <- Q. now apply in_map.
  Qed.
  Section Under.
    Variable (k : string * string).
    Lemma cut_in x : In x (cut_rows cs [k] rows) <-> In x rows /\ ~ under cs rows k (K x).
    Proof. apply (cut_ok cs tops rows k DS rows []); [reflexivity|intros q [<-|[]]; constructor|now left|intros y []]. Qed.
    Lemma cut_keep x : In x rows -> existsb (at_key (K x)) (map K (cut_rows cs [k] rows)) = true <-> ~ under cs rows k (K x).
    Proof.
      intros I. rewrite gone_ok. split.
      - intros J. apply in_map_iff in J as (y & E & J). apply cut_in in J as (J & N). now rewrite <- E.
      - intros N. apply in_map. now apply cut_in.
    Qed.
    Lemma kids_other q t : q <> k -> (forall x, In x rows -> r_parent x = Some q -> K x <> k) -> ~ under cs rows k q -> row_kids cs (cut_rows cs [k] rows) q t = row_kids cs rows q t.
    Proof.
      intros N NK NU. unfold row_kids. f_equal. rewrite (cut_filter rows [k] (da_keys _ _ _ DS)), filter_filter. apply filter_same. intros x I.
      destruct (is_parent q x) eqn:P; [|cbn [andb]; apply andb_false_r]. cbn [andb]. assert (E : existsb (at_key (K x)) (map K (cut_rows cs [k] rows)) = true); [|now rewrite E].
      apply cut_keep; [exact I|]. apply is_parent_ok in P. intros H. remember (K x) as z eqn:EZ. destruct H as [|x1 p I1 P1 H1]; [exact (NK x I P (eq_sym EZ))|].
      assert (x1 = x) by (apply (row_fun cs rows tops DS); auto). subst x1. assert (p = q) by congruence. subst p. contradiction.
    Qed.
    Lemma kids_parent q t x0 la lb : In x0 rows -> K x0 = k -> r_parent x0 = Some q -> ~ under cs rows k q -> fst k = t ->
      row_kids cs rows q t = la ++ snd k :: lb -> ~ In (snd k) la -> row_kids cs (cut_rows cs [k] rows) q t = la ++ lb.
    Proof.
      intros I0 K0 P0 NU ET E NL.
      assert (X : row_kids cs (cut_rows cs [k] rows) q t = filter (fun u => negb (String.eqb u (snd k))) (row_kids cs rows q t)).
      { unfold row_kids. rewrite (cut_filter rows [k] (da_keys _ _ _ DS)), filter_filter.
        assert (Y : forall l, incl l rows -> map (fun x => snd (K x)) (filter (fun x => existsb (at_key (K x)) (map K (cut_rows cs [k] rows)) && (is_parent q x && String.eqb (r_type x) t)) l) =
          filter (fun u => negb (String.eqb u (snd k))) (map (fun x => snd (K x)) (filter (fun x => is_parent q x && String.eqb (r_type x) t) l))); [|apply Y, incl_refl].
        induction l as [|x l IH]; intros IL; [reflexivity|]. assert (Ix : In x rows) by (apply IL; now left). specialize (IH (fun y J => IL y (or_intror J))). cbn [filter].
        destruct (is_parent q x && String.eqb (r_type x) t) eqn:P; [|rewrite andb_false_r; exact IH]. rewrite andb_true_r. cbn [map filter]. apply andb_true_iff in P as (P & T). apply is_parent_ok in P. apply String.eqb_eq in T.
        destruct (existsb _ _) eqn:X.
        - apply (cut_keep x Ix) in X. assert (N : String.eqb (snd (K x)) (snd k) = false); [|rewrite N; cbn [map negb]; f_equal; exact IH].
          apply String.eqb_neq. intros Q. apply X. assert (Z : K x = k). { apply injective_projections; [|exact Q]. change (r_type x = fst k). congruence. } rewrite Z. constructor.
        - assert (Z : K x = k).
          { destruct (at_key (K x) k) eqn:AK; [now apply at_key_ok|]. apply at_key_no in AK. assert (W : existsb (at_key (K x)) (map K (cut_rows cs [k] rows)) = true); [|congruence].
            apply (cut_keep x Ix). intros H. remember (K x) as z eqn:EZ. destruct H as [|x1 p I1 P1 H1]; [congruence|]. assert (x1 = x) by (apply (row_fun cs rows tops DS); auto). subst x1. assert (p = q) by congruence. subst p. contradiction. }
          rewrite Z, String.eqb_refl. exact IH. }
      rewrite X, E. assert (ND : NoDup (row_kids cs rows q t)) by exact (kids_once cs rows tops DS q t). rewrite E in ND. apply NoDup_remove_2 in ND.
      assert (FA : forall l, ~ In (snd k) l -> filter (fun u => negb (String.eqb u (snd k))) l = l).
      { induction l as [|u l IH]; intros N; [reflexivity|]. cbn [filter]. destruct (String.eqb_spec u (snd k)) as [->|NE]; [elim N; now left|]. cbn [negb]. f_equal. apply IH. intros J. apply N. now right. }
      rewrite filter_app. cbn [filter]. rewrite String.eqb_refl. cbn [negb]. rewrite (FA la NL), (FA lb); [reflexivity|]. intros J. apply ND. apply in_app_iff. now right.
    Qed.
  End Under.

  Section Level.
    Variables (level : string * string -> nat) (N : nat).
    Hypothesis LV : forall x, In x rows -> level (K x) < N /\ forall p, r_parent x = Some p -> level p < level (K x).
    Lemma under_level k q : under cs rows k q -> level k <= level q.
    Proof. intros H. induction H as [|x p I P _ IH]; [lia|]. pose proof (proj2 (LV x I) p P). lia. Qed.
    Lemma under_parent k q x : In x rows -> K x = k -> r_parent x = Some q -> ~ under cs rows k q.
    Proof. intros I E P H. apply under_level in H. subst k. pose proof (proj2 (LV x I) q P). lia. Qed.
    Lemma siblings q y1 y2 z : In y1 rows -> In y2 rows -> r_parent y1 = Some q -> r_parent y2 = Some q -> under cs rows (K y1) z -> under cs rows (K y2) z -> K y1 = K y2.
    Proof.
      intros I1 I2 P1 P2 H. induction H as [|x p I P H IH]; intros H2.
      - remember (K y1) as z eqn:EZ. destruct H2 as [|x' p' I' P' H']; [reflexivity|]. exfalso. assert (x' = y1) by (apply (row_fun cs rows tops DS); auto). subst x'. assert (p' = q) by congruence. subst p'.
        exact (under_parent _ q y2 I2 eq_refl P2 H').
      - remember (K x) as z eqn:EZ. destruct H2 as [|x' p' I' P' H'].
        + exfalso. assert (x = y2) by (apply (row_fun cs rows tops DS); auto). subst x. assert (p = q) by congruence. subst p. exact (under_parent _ q y1 I1 eq_refl P1 H).
        + assert (x' = x) by (apply (row_fun cs rows tops DS); auto). subst x'. assert (p' = p) by congruence. subst p'. now apply IH.
    Qed.
  End Level.
  Lemma under_first k z : under cs rows k z -> z = k \/ exists y, In y rows /\ r_parent y = Some k /\ under cs rows (K y) z.
  Proof.
    intros H. induction H as [|x p I P H IH]; [now left|]. right. destruct IH as [->|(y & J & Q & H')].
    - exists x. split; [exact I|]. split; [exact P|constructor].
    - exists y. split; [exact J|]. split; [exact Q|]. now apply (un_step cs rows (K y) x p).
  Qed.
End Cut.

(** ** A RedisStore *)
Section Redis.
  Variables (fuel : nat) (cs : dict cls) (tops : list string) (U : list row).
  Hypothesis RL : realm fuel cs tops U.
  Hypothesis F2 : 2 <= fuel.
  Variables (w : world) (a : aid) (ad : adapter) (i : string) (rows : list row).
  Hypothesis HA : nth_error (w_ads w) a = Some ad.
  Hypothesis HS : ad_store ad = SRedis i.
  Hypothesis EC : ad_classes ad = cs.
  Hypothesis PI : plain i = true.
  Hypothesis PT : forall x, In x U -> plain (r_type x) = true.
  Hypothesis ND : NoDup (dkeys (w_redis w)).
  Hypothesis OS : on_shelf w i cs rows.
  Hypothesis DS : dataset cs tops rows.
  Hypothesis OF : of_realm cs U rows.
  Notation K := (row_key cs).
  Notation rk := (fun x => redis_key i (fst (K x)) (snd (K x))).
  Notation n0 := (length (w_heap w)).

  Lemma rk_own x : rk x = ("diffsync:" ++ i ++ ":" ++ fst (K x) ++ ":" ++ snd (K x))%string.
  Proof. unfold redis_key, store_label. now rewrite !append_assoc. Qed.
  Lemma rk_foreign x k : (forall s, k <> ("diffsync:" ++ i ++ ":" ++ s)%string) -> k <> rk x.
  Proof. intros H E. rewrite rk_own in E. exact (H _ E). Qed.
  Lemma of_type x : In x rows -> plain (r_type x) = true.
  Proof. intros I. destruct (OF x I) as (y & J & (ET & _)). rewrite ET. now apply PT. Qed.
  Lemma rk_same x y : plain (r_type x) = true -> plain (r_type y) = true -> rk x = rk y -> K x = K y.
  Proof. intros X Y E. apply key_inj in E as (_ & E1 & E2); auto. now apply injective_projections. Qed.
  Lemma rk_rows x y : In x rows -> In y rows -> rk x = rk y -> x = y.
  Proof. intros I J E. apply (row_fun cs rows tops DS x y I J). apply rk_same; auto; now apply of_type. Qed.

  (** *** what it shows *)
  Definition before : world := mkWorld (w_heap w) (w_ads w) (filter (fun kv => negb (String.prefix ("diffsync:" ++ i ++ ":") (fst kv))) (w_redis w)) (w_trace w).
  Lemma before_get k : dget (w_redis before) k = if negb (String.prefix ("diffsync:" ++ i ++ ":") k) then dget (w_redis w) k else None.
  Proof. exact (dget_filter (fun k => negb (String.prefix ("diffsync:" ++ i ++ ":") k)) (w_redis w) k). Qed.
  Lemma before_none s : dget (w_redis before) ("diffsync:" ++ i ++ ":" ++ s)%string = None.
  Proof. rewrite before_get. replace ("diffsync:" ++ i ++ ":" ++ s)%string with (("diffsync:" ++ i ++ ":") ++ s)%string by now rewrite !append_assoc. now rewrite prefix_app. Qed.
  Lemma before_other k : (forall s, k <> ("diffsync:" ++ i ++ ":" ++ s)%string) -> dget (w_redis before) k = dget (w_redis w) k.
  Proof.
    intros H. rewrite before_get. destruct (String.prefix _ k) eqn:E; [|reflexivity]. apply prefix_split in E as (s & E). elim (H s). rewrite E. now rewrite !append_assoc.
  Qed.
  Lemma shelf_before : shelved before i cs rows rows w.
  Proof.
    split; [exact (proj1 OS)|]. split; [|exact ND]. intros k H. rewrite before_get. destruct (String.prefix _ k) eqn:E; [|reflexivity]. apply prefix_split in E as (s & E).
    assert (Q : k = ("diffsync:" ++ i ++ ":" ++ s)%string) by (rewrite E, !append_assoc; reflexivity). cbn [negb]. destruct (dget (w_redis w) k) as [o|] eqn:G; [|reflexivity].
    destruct (proj2 OS s) as (x & I & X); [congruence|]. elim (H x I). congruence.
  Qed.
  Lemma shelf_gives (PP : forall t, In t tops -> plain t = true) (PC : forall x c t, In x U -> dget cs (r_type x) = Some c -> In t (map fst (c_children c)) -> plain t = true) :
    proper_values cs rows -> gives w a cs rows tops.
  Proof.
    intros PV. pose proof (shelf_before) as SV. pose proof DS as DS'. rewrite <- EC in SV, DS', PV |- *. apply (shows_gives w a ad tops rows); auto.
    - apply (shelf_shows before w a ad ad i tops rows); auto.
      + exact of_type.
      + intros x c t I D. rewrite EC in D. destruct (OF x I) as (y & J & (ET & _)). rewrite ET in D. eauto.
      + exact before_none.
    - rewrite EC. exact (re_flags fuel cs tops U RL rows OF).
  Qed.

  (** *** reading an object *)
  Lemma get_copy t u o w1 : w_ads w1 = w_ads w -> dget (w_redis w1) (redis_key i t u) = Some o ->
    st_get a (MName t) (IdStr u) w1 = (set_heap w1 (w_heap w1 ++ [set_o_adapter o (Some a)]), Ok (length (w_heap w1))).
  Proof.
    intros A G. unfold st_get, bind, get_adapter. rewrite A, HA. cbn [object_class_and_model fst snd get_uid]. unfold lift. rewrite HS. unfold redis_load. rewrite G. reflexivity.
  Qed.
  Lemma update_put r o u w1 : w_ads w1 = w_ads w -> nth_error (w_heap w1) r = Some o -> get_unique_id o = Ok u ->
    st_update a r w1 = (set_redis w1 (dset (w_redis w1) (redis_key i (get_type o) u) (set_o_adapter o None)), Ok tt).
  Proof. intros A H E. unfold st_update, bind. rewrite (hget_eq _ _ _ H). unfold lift. rewrite E. unfold get_adapter. rewrite A, HA, HS. reflexivity. Qed.
  Lemma row_ok x : In x rows -> good_row cs x.
  Proof. exact (row_good cs rows tops DS x). Qed.

  (** *** adding *)
  Lemma sadd x : In x U -> (forall y, In y rows -> K y <> K x) -> (forall q, r_parent x = Some q -> exists y, In y rows /\ K y = q) ->
    exists w', keep_row a x w = (w', Ok tt) /\ beside i w w' /\ on_shelf w' i cs (rows ++ [x]).
  Proof.
    intros IU NEW PAR. pose proof (add_dataset fuel cs tops U RL rows DS x IU NEW PAR) as DS'.
    assert (PX : forall y, In y (rows ++ [x]) -> plain (r_type y) = true) by (intros y I; apply in_app_iff in I as [I|[<-|[]]]; [now apply of_type|now apply PT]).
    assert (FS : fresh_store before a ad i (rows ++ [x])).
    { split; auto; [|exact before_none]. unfold before. cbn [w_redis]. unfold dkeys. clear - ND. unfold dkeys in ND. induction (w_redis w) as [|[k o] d IH]; [constructor|]. cbn [map fst] in ND. inversion ND as [|? ? NI ND']; subst.
      cbn [filter fst]. destruct (negb _); [|now apply IH]. cbn [map fst]. constructor; [|now apply IH]. intros J. apply NI. apply in_map_iff in J as (z & E & J). apply filter_In in J as (J & _). apply in_map_iff. eauto. }
    assert (SI : sinv true before ad i rows w).
    { split; [reflexivity|]. split; [reflexivity|]. split; [apply Nat.le_refl|]. split; [reflexivity|]. rewrite EC. exact shelf_before. }
    destruct (srow_step true before a ad i (rows ++ [x]) FS) with (l := rows) (x := x) (m := @nil row) (w' := w) as (w' & E & (EA & ET & EL & EH & IS & IO & NDs)); auto; rewrite ?EC; auto.
    - intros y I. exact (row_good cs _ tops DS' y I).
    - apply DS'.
    - intros l y m ER. pose proof (da_parent _ _ _ DS' l y m ER) as P. destruct (r_parent y); [|exact Logic.I]. exact (proj2 P).
    - exists w'. split; [exact E|]. rewrite EC in IS, IO. cbn [kr] in IS. split.
      + split; [exact EA|]. split; [exact EL|]. split; [exact EH|]. split; [|exact NDs]. intros k H. rewrite IO by (intros y _; now apply rk_foreign). now apply before_other.
      + split; [exact IS|]. intros s NN. destruct (in_dec string_dec ("diffsync:" ++ i ++ ":" ++ s)%string (map rk (rows ++ [x]))) as [J|NJ].
        * apply in_map_iff in J as (y & Ey & J). eauto.
        * elim NN. rewrite IO; [apply before_none|]. intros y J Q. apply NJ. rewrite Q. apply (in_map rk). exact J.
  Qed.

  (** *** assigning *)
  Lemma sassign k f v x0 c0 : In x0 rows -> K x0 = k -> dget cs (r_type x0) = Some c0 -> In f (c_attributes c0) ->
    exists w', keep_attr a k f v w = (w', Ok tt) /\ beside i w w' /\ on_shelf w' i cs (set_row cs k f v rows).
  Proof.
    intros I0 K0 C0 AT. rewrite set_row_eq. set (nr := new_row cs k f v).
    pose proof (nr_dataset fuel cs tops U RL rows k f v x0 c0 DS OF K0 C0 AT) as DS'. fold nr in DS'.
    assert (NK : forall x, In x rows -> K (nr x) = K x) by (intros x I; exact (nr_key fuel cs tops U RL rows k f v x0 c0 OF K0 C0 AT x I)).
    destruct (proj1 OS x0 I0) as (o & So & Ao & Mo). unfold on_server in So. pose proof Mo as (c & Dc & MC & MF & MS & MV & MW & MK). assert (Q : c = c0) by congruence. rewrite Q in Dc, MC, MF, MV, MW, MK. clear Q c.
    destruct (row_ok x0 I0) as (c & Dc' & MN & CR & RQ). assert (c = c0) by congruence. subst c.
    set (o2 := set_o_vals (set_o_adapter o (Some a)) (dset (o_vals o) f v)).
    assert (FF : In f (map fst (c_fields c0))) by exact (cr_attrs c0 CR f AT).
    assert (DM : dmem (o_vals o) f = true). { destruct (dmem (o_vals o) f) eqn:E; [reflexivity|]. apply dmem_false in E. apply dget_None in E. elim E. unfold dkeys. rewrite MV. exact FF. }
    assert (M2 : made_from cs (map nr rows) (nr x0) o2).
    { exists c0. split; [unfold nr; now rewrite nr_type|]. split; [exact MC|]. split; [exact MF|]. split; [exact MS|]. split.
      - cbn [o2 o_vals set_o_vals]. change (map fst (dset (o_vals o) f v)) with (dkeys (dset (o_vals o) f v)). rewrite dkeys_dset, DM. exact MV.
      - split.
        + intros g Ig. cbn [o2 o_vals set_o_vals]. rewrite dget_dset. destruct (String.eqb_spec g f) as [->|NG].
          * symmetry. exact (nr_new cs k f v x0 c0 K0).
          * rewrite (MW g Ig). symmetry. exact (nr_value cs rows k f v x0 c0 g I0 Dc (or_introl NG)).
        + intros t g I. cbn [o2 o_kids set_o_vals set_o_adapter]. rewrite (MK t g I). rewrite (NK x0 I0). unfold nr. now rewrite (nr_kids fuel cs tops U RL rows k f v x0 c0 OF K0 C0 AT). }
    assert (GU : get_unique_id o2 = Ok (snd k)). { rewrite (made_uid cs (map nr rows) (nr x0) o2); [now rewrite (NK x0 I0), K0| |exact M2]. apply (row_good cs _ tops DS'). now apply in_map. }
    assert (GT : get_type o2 = fst k) by (rewrite <- K0; exact (eq_trans (f_equal c_modelname MC) MN)).
    rewrite K0 in So. set (r := length (w_heap w)). set (w1 := set_heap w (w_heap w ++ [set_o_adapter o (Some a)])). set (w2 := set_heap w1 (list_set (w_heap w1) r o2)).
    assert (H1 : nth_error (w_heap w1) r = Some (set_o_adapter o (Some a))) by (unfold w1, r; cbn [w_heap set_heap]; rewrite nth_error_app2, Nat.sub_diag by lia; reflexivity).
    assert (H2 : nth_error (w_heap w2) r = Some o2) by (unfold w2; cbn [w_heap set_heap]; eapply nth_list_set_eq; exact H1).
    exists (set_redis w2 (dset (w_redis w) (redis_key i (fst k) (snd k)) (set_o_adapter o2 None))). split.
    { unfold keep_attr. unfold bind at 1. rewrite (get_copy _ _ o w eq_refl So). fold w1 r. unfold bind. rewrite (hget_eq _ _ _ H1). unfold lift, setattr_val. cbn [o_vals set_o_adapter]. rewrite DM.
      change (set_o_vals (set_o_adapter o (Some a)) (dset (o_vals o) f v)) with o2. unfold hset, modify. fold w2. rewrite (update_put r o2 (snd k) w2 eq_refl H2 GU), GT. reflexivity. }
    split.
    - split; [reflexivity|]. cbn [w_heap set_redis set_heap w2 w1]. split; [rewrite list_set_length, app_length; lia|]. split.
      + intros q Q. rewrite nth_list_set_neq by (unfold r; lia). now rewrite nth_error_app1 by exact Q.
      + cbn [w_redis set_redis]. split; [|now apply NoDup_dset]. intros q Q. apply dget_dset_neq. rewrite <- K0. apply not_eq_sym. exact (rk_foreign x0 q Q).
    - split.
      + intros z' J. apply in_map_iff in J as (z & <- & J). rewrite (NK z J). unfold on_server. cbn [w_redis set_redis]. destruct (at_key (K z) k) eqn:E.
        * apply at_key_ok in E. assert (z = x0) by (apply (row_fun cs rows tops DS); congruence). subst z. exists (set_o_adapter o2 None). rewrite E. split; [apply dget_dset_eq|]. split; [reflexivity|]. now apply made_adapter.
        * apply at_key_no in E. destruct (proj1 OS z J) as (oz & Sz & Az & Mz). exists oz. split; [|split; [exact Az|]].
          { rewrite dget_dset_neq; [exact Sz|]. intros Q. apply E. rewrite <- K0 in Q |- *. f_equal. symmetry. exact (rk_rows x0 z I0 J Q). }
          assert (EN : nr z = z) by (unfold nr, new_row; apply at_key_no in E; now rewrite E). rewrite EN. destruct Mz as (cz & Dz & ZC & ZF & ZS & ZV & ZW & ZK). exists cz. do 6 (split; [assumption|]).
          intros t g I. rewrite (ZK t g I). unfold nr. now rewrite (nr_kids fuel cs tops U RL rows k f v x0 c0 OF K0 C0 AT).
      + intros s NN. cbn [w_redis set_redis] in NN. destruct (string_dec ("diffsync:" ++ i ++ ":" ++ s)%string (redis_key i (fst k) (snd k))) as [E|NE].
        * exists (nr x0). split; [now apply in_map|]. now rewrite (NK x0 I0), K0.
        * rewrite dget_dset_neq in NN by congruence. destruct (proj2 OS s NN) as (z & J & Ez). exists (nr z). split; [now apply in_map|]. now rewrite (NK z J).
  Qed.

  (** *** removing *)
  Section Level.
    Variable (level : string * string -> nat).
    Hypothesis LV : forall x, In x rows -> level (K x) < fuel - 1 /\ forall p, r_parent x = Some p -> level p < level (K x).
    Definition has_snap (w1 : world) (x : row) : Prop := exists o, dget (w_redis w1) (rk x) = Some o /\ made_from cs rows x o.
    (** what is left when the objects with these keys, and those below them, have been removed *)
    Definition swept (G : string * string -> Prop) (w1 w2 : world) : Prop :=
      w_ads w2 = w_ads w /\ length (w_heap w1) <= length (w_heap w2) /\ (forall q, q < n0 -> nth_error (w_heap w2) q = nth_error (w_heap w1) q) /\
      (forall z g, In z rows -> G g -> under cs rows g (K z) -> dget (w_redis w2) (rk z) = None) /\
      (forall q, (forall z g, In z rows -> G g -> under cs rows g (K z) -> q <> rk z) -> dget (w_redis w2) q = dget (w_redis w1) q) /\
      NoDup (dkeys (w_redis w2)).
    Lemma swept_refl w1 : w_ads w1 = w_ads w -> NoDup (dkeys (w_redis w1)) -> swept (fun _ => False) w1 w1.
    Proof. intros A N. split; [exact A|]. split; [apply Nat.le_refl|]. split; [reflexivity|]. split; [intros z g _ []|]. split; [reflexivity|exact N]. Qed.
    Lemma swept_step (G H : string * string -> Prop) w1 w2 w3 : swept G w1 w2 -> swept H w2 w3 -> swept (fun g => G g \/ H g) w1 w3.
    Proof.
      intros (A1 & L1 & H1 & N1 & O1 & D1) (A2 & L2 & H2 & N2 & O2 & D2). split; [exact A2|]. split; [lia|]. split; [intros q Q; rewrite H2 by exact Q; now apply H1|]. split; [|split; [|exact D2]].
      - intros z g I [X|X] Y; [|now apply (N2 z g)]. destruct (dget (w_redis w3) (rk z)) as [o|] eqn:E; [|reflexivity]. rewrite O2 in E; [rewrite (N1 z g I X Y) in E; discriminate|].
        intros z' g' I' X' Y' Q. assert (z' = z) by (symmetry; apply rk_rows; auto). subst z'. rewrite (N2 z g' I' X' Y') in E. discriminate.
      - intros q Q. rewrite O2 by (intros z g I X Y; apply (Q z g I); auto). apply O1. intros z g I X Y. apply (Q z g I); auto.
    Qed.
    Lemma swept_as (G H : string * string -> Prop) w1 w2 : (forall g, G g <-> H g) -> swept G w1 w2 -> swept H w1 w2.
    Proof.
      intros E (A1 & L1 & H1 & N1 & O1 & D1). split; [exact A1|]. split; [exact L1|]. split; [exact H1|]. split; [intros z g I X; apply (N1 z g I); now apply E|]. split; [|exact D1].
      intros q Q. apply O1. intros z g I X. apply (Q z g I). now apply E.
    Qed.

    Section Kids.
      Variables (n : nat) (x : row).
      Hypothesis IH : forall y w1 r o, In y rows -> r_parent y = Some (K x) -> w_ads w1 = w_ads w -> n0 <= r -> nth_error (w_heap w1) r = Some o -> made_from cs rows y o -> dget (w_redis w1) (rk y) <> None ->
        (forall z, In z rows -> under cs rows (K y) (K z) -> K z <> K y -> has_snap w1 z) -> NoDup (dkeys (w_redis w1)) -> n0 <= length (w_heap w1) ->
        exists w2, st_remove n a r true w1 = (w2, Ok tt) /\ swept (eq (K y)) w1 w2.
      Notation one t := (fun u => try_catch (c <- st_get a (MName t) (IdStr u) ;; st_remove n a c true) is_not_found
              (fun _ => emit (EvLog LError None None "Unable to remove child element as it was not found!"))).
      (** [G]: the children removed so far *)
      Lemma sweep_ids t : forall us G wa w1, n0 <= length (w_heap wa) -> swept G wa w1 ->
        (forall g, G g -> exists y, In y rows /\ r_parent y = Some (K x) /\ K y = g) ->
        (forall z, In z rows -> under cs rows (K x) (K z) -> K z <> K x -> has_snap wa z) ->
        (forall u, In u us -> exists y, In y rows /\ r_parent y = Some (K x) /\ K y = (t, u)) -> NoDup us -> (forall u, In u us -> ~ G (t, u)) ->
        exists w2, forM us (one t) w1 = (w2, Ok tt) /\ swept (fun g => G g \/ exists u, In u us /\ g = (t, u)) wa w2.
      Proof.
        induction us as [|u us IHu]; intros G wa w1 LN SW GK SN UK NDu NG.
        - exists w1. split; [reflexivity|]. revert SW. apply swept_as. intros g. split; [now left|]. intros [X|(u & [] & _)]. exact X.
        - inversion NDu as [|? ? NI NDu']; subst. destruct (UK u) as (y & Iy & Py & Ky); [now left|].
          assert (UY : under cs rows (K x) (K y)) by (apply (un_step cs rows (K x) y (K x)); auto; constructor).
          assert (NS : forall z, In z rows -> under cs rows (K y) (K z) -> has_snap w1 z).
          { intros z Iz Uz. assert (UX : under cs rows (K x) (K z)) by exact (under_trans cs rows (K x) (K y) (K z) UY Uz).
            assert (NZ : K z <> K x). { intros E. rewrite E in Uz. exact (under_parent cs rows level (fuel - 1) LV (K y) (K x) y Iy eq_refl Py Uz). }
            destruct (SN z Iz UX NZ) as (o & So & Mo). exists o. split; [|exact Mo]. destruct SW as (_ & _ & _ & _ & O1 & _). rewrite O1; [exact So|].
            intros z' g Iz' Gg Ug Q. assert (z' = z) by (symmetry; apply rk_rows; auto). subst z'. destruct (GK g Gg) as (y' & Iy' & Py' & Ky'). rewrite <- Ky' in Ug.
            pose proof (siblings cs tops rows DS level (fuel - 1) LV (K x) y' y (K z) Iy' Iy Py' Py Ug Uz) as E. apply (NG u); [now left|]. congruence. }
          destruct (NS y Iy (un_self _ _ _)) as (o & So & Mo). pose proof SW as (A1 & L1 & H1 & N1 & O1 & D1).
          set (r := length (w_heap w1)). set (w1' := set_heap w1 (w_heap w1 ++ [set_o_adapter o (Some a)])).
          assert (GC : st_get a (MName t) (IdStr u) w1 = (w1', Ok r)) by (apply get_copy; [exact A1|rewrite Ky in So; exact So]).
          assert (H1' : nth_error (w_heap w1') r = Some (set_o_adapter o (Some a))) by (unfold w1', r; cbn [w_heap set_heap]; rewrite nth_error_app2, Nat.sub_diag by lia; reflexivity).
          assert (LR : n0 <= r) by (unfold r; lia). assert (P1 : dget (w_redis w1') (rk y) <> None) by (change (w_redis w1') with (w_redis w1); rewrite So; discriminate).
          assert (LL : n0 <= length (w_heap w1')) by (unfold w1'; cbn [w_heap set_heap]; rewrite app_length; lia).
          destruct (IH y w1' r (set_o_adapter o (Some a)) Iy Py A1 LR H1' (made_adapter cs rows y o (Some a) Mo) P1 (fun z Iz Uz _ => NS z Iz Uz) D1 LL) as (w2 & E2 & S2).
          assert (S1' : swept G wa w1').
          { split; [exact A1|]. split; [unfold w1'; cbn [w_heap set_heap]; rewrite app_length; lia|]. split; [|split; [exact N1|split; [exact O1|exact D1]]].
            intros q Q. unfold w1'. cbn [w_heap set_heap]. rewrite nth_error_app1 by lia. now apply H1. }
          pose proof (swept_step _ _ _ _ _ S1' S2) as S3. destruct (IHu _ wa w2 LN S3) as (w3 & E3 & S4); auto.
          { intros g [X|X]; [now apply GK|]. exists y. auto. }
          { intros u' I'. apply UK. now right. }
          { intros u' I' [X|X]; [apply (NG u'); [now right|exact X]|]. rewrite Ky in X. injection X as X. now subst u'. }
          exists w3. split.
          { cbn [forM]. unfold bind at 1. unfold try_catch at 1. unfold bind at 1. rewrite GC, E2. exact E3. }
          revert S4. apply swept_as. intros g. split.
          + intros [[X|X]|(u' & I' & X)]; [now left|right; exists u; split; [now left|congruence]|right; exists u'; split; [now right|exact X]].
          + intros [X|(u' & [I'|I'] & X)]; [left; now left|left; right; congruence|right; eauto].
      Qed.
      Lemma sweep_types o : (forall t f, In (t, f) (c_children (o_cls o)) -> dget (o_kids o) f = Some (row_kids cs rows (K x) t)) ->
        forall l G wa w1, incl l (c_children (o_cls o)) -> NoDup (map fst l) -> n0 <= length (w_heap wa) -> swept G wa w1 ->
        (forall g, G g -> exists y, In y rows /\ r_parent y = Some (K x) /\ K y = g) ->
        (forall z, In z rows -> under cs rows (K x) (K z) -> K z <> K x -> has_snap wa z) ->
        (forall t u, In t (map fst l) -> ~ G (t, u)) ->
        exists w2, forM l (fun tf => child_ids <- lift (getattr_kids o (snd tf)) ;; forM child_ids (one (fst tf))) w1 = (w2, Ok tt) /\
          swept (fun g => G g \/ exists y, In y rows /\ r_parent y = Some (K x) /\ K y = g /\ In (fst g) (map fst l)) wa w2.
      Proof.
        intros MK. induction l as [|[t f] l IHl]; intros G wa w1 IL NDl LN SW GK SN NG.
        - exists w1. split; [reflexivity|]. revert SW. apply swept_as. intros g. split; [now left|]. intros [X|(y & _ & _ & _ & [])]. exact X.
        - cbn [map fst] in NDl. inversion NDl as [|? ? NI NDl']; subst.
          destruct (sweep_ids t (row_kids cs rows (K x) t) G wa w1 LN SW GK SN) as (w2 & E2 & S2).
          { intros u I. apply row_kids_In in I as (y & Iy & Py & Ky). eauto. } { exact (kids_once cs rows tops DS (K x) t). } { intros u I. apply NG. now left. }
          destruct (IHl _ wa w2 (fun z Z => IL z (or_intror Z)) NDl' LN S2) as (w3 & E3 & S3); auto.
          { intros g [X|(u & I & ->)]; [now apply GK|]. apply row_kids_In in I as (y & Iy & Py & Ky). eauto. }
          { intros t' u' It [X|(u & I & X)]; [apply (NG t' u'); [now right|exact X]|]. injection X as X _. subst t'. contradiction. }
          exists w3. split.
          { cbn [forM fst snd]. unfold bind at 1. unfold bind at 1. unfold lift at 1, getattr_kids. rewrite (MK t f) by (apply IL; now left). rewrite E2. exact E3. }
          revert S3. apply swept_as. intros g. split.
          + intros [[X|(u & I & ->)]|(y & Iy & Py & Ky & It)]; [now left| |].
            * apply row_kids_In in I as (y & Iy & Py & Ky). right. exists y. do 3 (split; [assumption|]). now left.
            * right. exists y. do 3 (split; [assumption|]). now right.
          + intros [X|(y & Iy & Py & Ky & [It|It])]; [left; now left| |right; eauto]. left. right. exists (snd g). cbn [fst] in It. split; [|rewrite It; apply surjective_pairing].
            apply row_kids_In. exists y. do 2 (split; [assumption|]). rewrite Ky, It. apply surjective_pairing.
      Qed.
    End Kids.
    Lemma sweep : forall n x w1 r o, In x rows -> fuel - 1 <= n + level (K x) -> w_ads w1 = w_ads w -> n0 <= r -> nth_error (w_heap w1) r = Some o -> made_from cs rows x o -> dget (w_redis w1) (rk x) <> None ->
      (forall z, In z rows -> under cs rows (K x) (K z) -> K z <> K x -> has_snap w1 z) -> NoDup (dkeys (w_redis w1)) -> n0 <= length (w_heap w1) ->
      exists w2, st_remove n a r true w1 = (w2, Ok tt) /\ swept (eq (K x)) w1 w2.
    Proof.
      induction n as [|n IH]; intros x w1 r o IX LN A1 LR H1 MO PR SN D1 LH; [pose proof (proj1 (LV x IX)); lia|].
      pose proof MO as (c & Dc & MC & MF & MS & MV & MW & MK). destruct (row_ok x IX) as (c' & Dc' & MN & CR & RQ). assert (Q : c' = c) by congruence. rewrite Q in Dc', MN, CR, RQ. clear Q c'.
      set (w2 := set_redis w1 (ddel (w_redis w1) (rk x))).
      assert (CA : exists w3, clear_adapter r w2 = (w3, Ok tt) /\ w_ads w3 = w_ads w /\ w_redis w3 = w_redis w2 /\ length (w_heap w3) = length (w_heap w1) /\ forall q, q < n0 -> nth_error (w_heap w3) q = nth_error (w_heap w1) q).
      { unfold clear_adapter, bind. rewrite (hget_eq r w2 o H1). unfold get_state. destruct (adapter_truthy w2 (o_adapter o)).
        - eexists. split; [reflexivity|]. split; [exact A1|]. split; [reflexivity|]. cbn [w_heap set_heap w2 set_redis]. split; [apply list_set_length|]. intros q Q. apply nth_list_set_neq. lia.
        - eexists. split; [reflexivity|]. split; [exact A1|]. split; [reflexivity|]. split; [reflexivity|]. reflexivity. }
      destruct CA as (w3 & E3 & A3 & R3 & L3 & H3). assert (D3 : NoDup (dkeys (w_redis w3))) by (rewrite R3; unfold w2; cbn [w_redis set_redis]; now apply NoDup_ddel).
      assert (G3 : forall k, dget (w_redis w3) k = if String.eqb k (rk x) then None else dget (w_redis w1) k) by (intros k; rewrite R3; unfold w2; cbn [w_redis set_redis]; now apply dget_ddel).
      destruct (sweep_types n x) with (o := o) (l := c_children (o_cls o)) (G := fun _ : string * string => False) (wa := w3) (w1 := w3) as (w4 & E4 & S4).
      - intros y w5 r5 o5 Iy Py A5 LR5 H5 MO5 PR5 SN5 D5 LH5. apply (IH y w5 r5 o5); auto. pose proof (proj2 (LV y Iy) (K x) Py). lia.
      - rewrite MC. exact MK.
      - apply incl_refl.
      - rewrite MC. exact (cr_types c CR).
      - lia.
      - now apply swept_refl.
      - intros g [].
      - intros z Iz Uz Nz. destruct (SN z Iz Uz Nz) as (oz & Sz & Mz). exists oz. split; [|exact Mz]. rewrite G3. destruct (String.eqb_spec (rk z) (rk x)) as [E|_]; [|exact Sz]. elim Nz. f_equal. now apply rk_rows.
      - intros t u _ [].
      - exists w4. split.
        { cbn [st_remove]. unfold bind at 1. rewrite (hget_eq _ _ _ H1). unfold bind at 1, lift at 1. rewrite (made_uid cs rows x o (row_ok x IX) MO).
          assert (SR : st_remove_item a (get_type o) (snd (K x)) w1 = (w2, Ok tt)).
          { unfold st_remove_item, bind, get_adapter. rewrite A1, HA, HS. unfold get_state. rewrite (made_type cs rows x o (row_ok x IX) MO). change (r_type x) with (fst (K x)).
            destruct (dget (w_redis w1) (redis_key i (fst (K x)) (snd (K x)))); [reflexivity|congruence]. }
          unfold bind at 1. rewrite SR. unfold bind at 1. rewrite E3. exact E4. }
        destruct S4 as (A4 & L4 & H4 & N4 & O4 & D4). split; [exact A4|]. split; [lia|]. split; [intros q Q; rewrite H4 by exact Q; now apply H3|]. split; [|split; [|exact D4]].
        + intros z g Iz <- Uz. destruct (at_key (K z) (K x)) eqn:E.
          * apply at_key_ok in E. assert (z = x) by (apply (row_fun cs rows tops DS); auto). subst z. rewrite O4; [now rewrite G3, String.eqb_refl|].
            intros z g Iz' [[]|(y & Iy & Py & Ky & _)] Ug Q. assert (z = x) by (symmetry; apply rk_rows; auto). subst z. rewrite <- Ky in Ug. exact (under_parent cs rows level (fuel - 1) LV (K y) (K x) y Iy eq_refl Py Ug).
          * apply at_key_no in E. destruct (under_first cs rows (K x) (K z) Uz) as [Q|(y & Iy & Py & Uy)]; [contradiction|]. apply (N4 z (K y) Iz); [|exact Uy]. right. exists y. do 3 (split; [auto|]).
            destruct (ca_before cs rows tops DS y (K x) Iy Py) as (l1 & x1 & m1 & c1 & ER & J1 & K1 & D1' & Ch). assert (x1 = x) by (apply (row_fun cs rows tops DS); auto; rewrite ER; apply in_app_iff; now left). subst x1.
            rewrite MC. assert (Q : c1 = c) by congruence. rewrite <- Q. exact Ch.
        + intros q Q. rewrite O4.
          * rewrite G3. destruct (String.eqb_spec q (rk x)) as [E|_]; [|reflexivity]. elim (Q x (K x) IX eq_refl (un_self _ _ _) E).
          * intros z g Iz [[]|(y & Iy & Py & Ky & _)] Ug. apply (Q z (K x) Iz eq_refl). apply (under_trans cs rows (K x) (K y)); [apply (un_step cs rows (K x) y (K x)); auto; constructor|]. now rewrite Ky.
    Qed.
  End Level.
  Lemma sdrop p x0 : In x0 rows -> r_parent x0 = p ->
    exists w', keep_drop fuel a p (K x0) w = (w', Ok tt) /\ beside i w w' /\ on_shelf w' i cs (cut_rows cs [K x0] rows).
  Proof.
    intros I0 P0. set (k := K x0). destruct (re_shallow fuel cs tops U RL rows OF) as (level & LV).
    destruct (proj1 OS x0 I0) as (o & So & Ao & Mo). unfold on_server in So. fold k in So.
    set (r := n0). set (oc := set_o_adapter o (Some a)). set (w1 := set_heap w (w_heap w ++ [oc])).
    assert (E1 : st_get a (MName (fst k)) (IdStr (snd k)) w = (w1, Ok r)) by (apply get_copy; auto).
    assert (H1 : nth_error (w_heap w1) r = Some oc) by (unfold w1, r; cbn [w_heap set_heap]; rewrite nth_error_app2, Nat.sub_diag by lia; reflexivity).
    assert (Mc : made_from cs rows x0 oc) by now apply made_adapter.
    assert (NP : forall q, p = Some q -> ~ under cs rows k q) by (intros q Q; exact (under_parent cs rows level (fuel - 1) LV k q x0 I0 eq_refl (eq_trans P0 Q))).
    (* after the parent has been dealt with *)
    assert (MID : exists w2, match p with
        | None => ret tt
        | Some p => pr <- st_get a (MName (fst p)) (IdStr (snd p)) ;; parent <- hget pr ;; child <- hget r ;; parent' <- lift (remove_child parent child) ;; hset pr parent' ;;; st_update a pr
        end w1 = (w2, Ok tt) /\ w_ads w2 = w_ads w /\ length (w_heap w1) <= length (w_heap w2) /\ (forall q, q < n0 -> nth_error (w_heap w2) q = nth_error (w_heap w) q) /\
        nth_error (w_heap w2) r = Some oc /\ NoDup (dkeys (w_redis w2)) /\
        (forall z, In z rows -> under cs rows k (K z) -> dget (w_redis w2) (rk z) = dget (w_redis w) (rk z)) /\
        (forall z, In z (cut_rows cs [k] rows) -> exists oz, dget (w_redis w2) (rk z) = Some oz /\ o_adapter oz = None /\ made_from cs (cut_rows cs [k] rows) z oz) /\
        forall q, (forall z, In z rows -> q <> rk z) -> dget (w_redis w2) q = dget (w_redis w) q).
    { assert (OTH : forall z oz, In z (cut_rows cs [k] rows) -> p <> Some (K z) -> made_from cs rows z oz -> made_from cs (cut_rows cs [k] rows) z oz).
      { intros z oz J N (c & Dz & ZC & ZF & ZS & ZV & ZW & ZK). apply (cut_in cs tops rows DS) in J as (J & NU). exists c. do 6 (split; [assumption|]). intros t f I. rewrite (ZK t f I). f_equal. symmetry.
        apply (kids_other cs tops rows DS); auto.
        - intros E. apply NU. rewrite E. constructor.
        - intros y Iy Py E. apply N. rewrite <- P0. assert (y = x0) by (apply (row_fun cs rows tops DS); auto). now subst y. }
      assert (DM : forall z, In z (cut_rows cs [k] rows) -> In z rows) by (intros z J; now apply (cut_in cs tops rows DS) in J).
      assert (H1' : forall q, q < n0 -> nth_error (w_heap w1) q = nth_error (w_heap w) q) by (intros q Q; unfold w1; cbn [w_heap set_heap]; now rewrite nth_error_app1 by exact Q).
      destruct p as [p|].
      - destruct (ca_before cs rows tops DS x0 p I0 P0) as (l1 & y & m1 & cy & ER & Iy & Ky & Dy & Ch). assert (Jy : In y rows) by (rewrite ER; apply in_app_iff; now left).
        destruct (proj1 OS y Jy) as (oy & Sy & Ay & My). unfold on_server in Sy. pose proof My as (c & Dc & YC & YF & YS & YV & YW & YK). assert (Q : c = cy) by congruence. rewrite Q in Dc, YC, YF, YV, YW, YK. clear Q c.
        destruct (row_ok y Jy) as (c & Dc' & YN & CR & RQ). assert (Q : c = cy) by congruence. rewrite Q in Dc', YN, CR, RQ. clear Q c.
        apply in_map_iff in Ch as ([t f] & Et & Ch). cbn [fst] in Et. subst t. set (py := set_o_adapter oy (Some a)).
        destruct (remove_child_ok py oc f (row_kids cs rows (K y) (r_type x0)) (snd k)) as (la & lb & El & Nl & RC).
        { cbn [py set_o_adapter o_cls]. rewrite YC, (made_type cs rows x0 oc (row_ok x0 I0) Mc). apply In_dget; [exact (cr_types cy CR)|exact Ch]. }
        { cbn [py set_o_adapter o_kids]. now apply YK. }
        { exact (made_uid cs rows x0 oc (row_ok x0 I0) Mc). }
        { apply row_kids_In. exists x0. split; [exact I0|]. split; [now rewrite Ky|]. unfold k, row_key. reflexivity. }
        set (py' := set_o_kids py (dset (o_kids py) f (la ++ lb))) in *.
        assert (NU : ~ under cs rows k (K y)) by (rewrite Ky; now apply NP).
        assert (JC : In y (cut_rows cs [k] rows)) by now apply (cut_in cs tops rows DS).
        assert (MY : made_from cs (cut_rows cs [k] rows) y py').
        { exists cy. split; [exact Dy|]. do 5 (split; [assumption|]). intros t g I. cbn [py' py set_o_kids set_o_adapter o_kids]. rewrite dget_dset. destruct (String.eqb_spec g f) as [->|NG].
          - assert (t = r_type x0).
            { pose proof (cr_own cy CR) as OW. unfold own_fields in OW. clear - OW I Ch. unfold dvals in OW. induction (c_children cy) as [|[t1 f1] cc IH]; [destruct I|].
              inversion OW as [|? ? NI OW']; subst. destruct I as [I|I], Ch as [Ch|Ch]; try congruence; [| |now apply IH].
              - injection I as -> ->. elim NI. apply in_map_iff. exists (r_type x0, f). auto.
              - injection Ch as -> ->. elim NI. apply in_map_iff. exists (t, f). auto. }
            subst t. f_equal. symmetry. apply (kids_parent cs tops rows DS k (K y) (r_type x0) x0 la lb); auto. now rewrite Ky.
          - rewrite (YK t g I). f_equal. symmetry. assert (NT : t <> r_type x0).
            { intros ->. apply NG. pose proof (cr_types cy CR) as TY. apply (In_dget _ _ _ TY) in I. apply (In_dget _ _ _ TY) in Ch. congruence. }
            unfold row_kids. f_equal. rewrite (cut_filter cs rows [k] (da_keys _ _ _ DS)), filter_filter. apply filter_same. intros z Iz.
            destruct (is_parent (K y) z) eqn:PZ; [|cbn [andb]; apply andb_false_r]. cbn [andb]. destruct (String.eqb_spec (r_type z) t) as [ET|]; [|apply andb_false_r]. rewrite andb_true_r.
            apply (cut_keep cs tops rows DS k z Iz). intros H. apply is_parent_ok in PZ. remember (K z) as kz eqn:EZ. destruct H as [|z1 pz I1 P1 H1'']; [apply NT; rewrite <- ET; change (fst (K z) = fst (K x0)); now rewrite <- EZ|].
            assert (z1 = z) by (apply (row_fun cs rows tops DS); auto). subst z1. assert (pz = K y) by congruence. subst pz. contradiction. }
        set (q := length (w_heap w1)). set (w2 := set_heap w1 (w_heap w1 ++ [py])). set (w3 := set_heap w2 (list_set (w_heap w2) q py')).
        assert (RQq : r < q) by (unfold q, r, w1; cbn [w_heap set_heap]; rewrite app_length; simpl; lia).
        assert (H2q : nth_error (w_heap w2) q = Some py) by (unfold w2, q; cbn [w_heap set_heap]; rewrite nth_error_app2, Nat.sub_diag by lia; reflexivity).
        assert (H2r : nth_error (w_heap w2) r = Some oc) by (unfold w2; cbn [w_heap set_heap]; rewrite nth_error_app1 by exact RQq; exact H1).
        assert (H3q : nth_error (w_heap w3) q = Some py') by (unfold w3; cbn [w_heap set_heap]; eapply nth_list_set_eq; exact H2q).
        assert (GP : st_get a (MName (fst p)) (IdStr (snd p)) w1 = (w2, Ok q)) by (apply get_copy; [reflexivity|]; rewrite <- Ky; exact Sy).
        assert (GU : get_unique_id py' = Ok (snd (K y))) by exact (made_uid cs (cut_rows cs [k] rows) y py' (row_ok y Jy) MY).
        assert (GT : get_type py' = fst (K y)) by exact (made_type cs (cut_rows cs [k] rows) y py' (row_ok y Jy) MY).
        exists (set_redis w3 (dset (w_redis w) (rk y) (set_o_adapter py' None))). split.
        { unfold bind at 1. rewrite GP. unfold bind. rewrite (hget_eq _ _ _ H2q), (hget_eq _ _ _ H2r). unfold lift. rewrite RC. unfold hset, modify. fold w3. rewrite (update_put q py' (snd (K y)) w3 eq_refl H3q GU), GT. reflexivity. }
        split; [reflexivity|]. cbn [w_heap w_redis set_redis]. split; [unfold w3, w2; cbn [w_heap set_heap]; rewrite list_set_length, app_length; lia|]. split.
        { intros z Z. unfold w3. cbn [w_heap set_heap]. rewrite nth_list_set_neq by lia. unfold w2. cbn [w_heap set_heap]. rewrite nth_error_app1 by lia. now apply H1'. }
        split; [unfold w3; cbn [w_heap set_heap]; rewrite nth_list_set_neq by lia; exact H2r|]. split; [now apply NoDup_dset|]. split; [|split].
        + intros z Iz Uz. apply dget_dset_neq. intros E. assert (y = z) by (apply rk_rows; auto). subst z. contradiction.
        + intros z J. destruct (at_key (K z) (K y)) eqn:E.
          * apply at_key_ok in E. assert (z = y) by (apply (row_fun cs rows tops DS); auto). subst z. exists (set_o_adapter py' None). split; [apply dget_dset_eq|]. split; [reflexivity|]. now apply made_adapter.
          * apply at_key_no in E. destruct (proj1 OS z (DM z J)) as (oz & Sz & Az & Mz). exists oz. split; [|split; [exact Az|]].
            { rewrite dget_dset_neq; [exact Sz|]. intros Q. apply E. f_equal. symmetry. apply rk_rows; auto. }
            apply OTH; auto. rewrite <- Ky. congruence.
        + intros z Z. apply dget_dset_neq. intros Q. exact (Z y Jy (eq_sym Q)).
      - exists w1. split; [reflexivity|]. split; [reflexivity|]. split; [apply Nat.le_refl|]. split; [exact H1'|]. split; [exact H1|]. split; [exact ND|]. split; [reflexivity|]. split; [|reflexivity].
        intros z J. destruct (proj1 OS z (DM z J)) as (oz & Sz & Az & Mz). exists oz. split; [exact Sz|]. split; [exact Az|]. apply OTH; auto. discriminate. }
    destruct MID as (w2 & E2 & A2 & L2 & H2 & R2 & D2 & UN & KE & OT).
    assert (LW : n0 <= length (w_heap w2)) by (etransitivity; [|exact L2]; unfold w1; cbn [w_heap set_heap]; rewrite app_length; lia).
    destruct (sweep level LV fuel x0 w2 r oc) as (w3 & E3 & (A3 & L3 & H3 & N3 & O3 & D3)); auto.
    { lia. } { rewrite (UN x0 I0 (un_self _ _ _)). fold k. congruence. }
    { intros z Iz Uz _. destruct (proj1 OS z Iz) as (oz & Sz & Az & Mz). exists oz. split; [|exact Mz]. rewrite (UN z Iz Uz). exact Sz. }
    exists w3. split; [unfold keep_drop; unfold bind at 1; rewrite E1; unfold bind at 1; rewrite E2; exact E3|].
    assert (ST : forall z, In z (cut_rows cs [k] rows) -> dget (w_redis w3) (rk z) = dget (w_redis w2) (rk z)).
    { intros z J. apply (cut_in cs tops rows DS) in J as (J & NU). apply O3. intros z' g I' <- U' Q. assert (z' = z) by (symmetry; apply rk_rows; auto). subst z'. contradiction. }
    split.
    - split; [exact A3|]. split; [lia|]. split; [intros q Q; rewrite H3 by exact Q; now apply H2|]. split; [|exact D3]. intros q Q. rewrite O3 by (intros z g _ _ _; now apply rk_foreign). apply OT. intros z _. now apply rk_foreign.
    - split.
      + intros z J. destruct (KE z J) as (oz & Sz & Az & Mz). exists oz. split; [unfold on_server; rewrite (ST z J); exact Sz|auto].
      + intros s NN. destruct (in_dec string_dec ("diffsync:" ++ i ++ ":" ++ s)%string (map rk rows)) as [J|NJ].
        * apply in_map_iff in J as (z & Ez & J). exists z. split; [|exact Ez]. apply (cut_in cs tops rows DS). split; [exact J|]. intros Uz. apply NN. rewrite <- Ez. exact (N3 z k J eq_refl Uz).
        * elim NN. assert (W : forall z, In z rows -> ("diffsync:" ++ i ++ ":" ++ s)%string <> rk z) by (intros z J Q; apply NJ; rewrite Q; apply (in_map rk); exact J).
          rewrite O3 by (intros z g J _ _; now apply W). rewrite OT by exact W. destruct (dget (w_redis w) ("diffsync:" ++ i ++ ":" ++ s)%string) as [e|] eqn:G; [|reflexivity]. destruct (proj2 OS s) as (z & J & Ez); [congruence|]. elim (W z J). congruence.
  Qed.
End Redis.

(** ** A LocalStore: [update] finds the object where it is *)
Lemma update_stored w a t u r o : lookup w a t u = Some r -> nth_error (w_heap w) r = Some o -> get_type o = t -> get_unique_id o = Ok u -> st_update a r w = (w, Ok tt).
Proof.
  intros L H T E. destruct (lookup_is_local w a t u r L) as (ad & d & HL). pose proof HL as (A & B). rewrite (lookup_local w a ad d t u HL) in L.
  unfold st_update, bind. rewrite (hget_eq _ _ _ H). unfold lift. rewrite E. unfold get_adapter. rewrite A, B, T. rewrite put_store_eq, touch_known by (eapply bucket_nonempty_known; eauto).
  rewrite (upd_same w a ad d HL), L, Nat.eqb_refl. reflexivity.
Qed.
Lemma got_stored a m u w1 w2 r : st_get a (MName m) (IdStr u) w1 = (w2, Ok r) -> has_local w2 a -> lookup w2 a m u = Some r.
Proof.
  unfold st_get, bind, get_adapter. destruct (nth_error (w_ads w1) a) as [ad|] eqn:A; [|discriminate]. cbn [object_class_and_model fst snd get_uid]. unfold lift.
  destruct (ad_store ad) as [d|i] eqn:B.
  - rewrite put_store_eq. cbn [spec_name]. destruct (dget (bucket d m) u) as [r'|] eqn:G; [|discriminate]. intros E _. injection E as <- <-.
    rewrite (lookup_local _ _ _ _ m u (is_local_upd _ _ _ _ (touch d m) (conj A B))). rewrite touch_known by (eapply bucket_nonempty_known; eauto). exact G.
  - unfold redis_load. destruct (dget (w_redis w1) _); [|discriminate]. intros E (ad' & d' & A' & B'). injection E as <- _. cbn [w_ads set_heap] in A'. congruence.
Qed.
Lemma hget_state r w w' x : hget r w = (w', x) -> w' = w.
Proof. unfold hget. destruct (nth_error (w_heap w) r); congruence. Qed.
Section Local.
  Variables (fuel : nat) (cs : dict cls) (tops : list string) (U : list row).
  Hypothesis RL : realm fuel cs tops U.
  Hypothesis F2 : 2 <= fuel.
  Variables (w : world) (a : aid) (rows : list row).
  Hypothesis CA : carries w a cs rows.
  Hypothesis DS : dataset cs tops rows.
  Hypothesis OF : of_realm cs U rows.
  Notation K := (row_key cs).
  Lemma kassign k f v x0 c0 : In x0 rows -> K x0 = k -> dget cs (r_type x0) = Some c0 -> In f (c_attributes c0) -> py_eq v v = true ->
    exists w', keep_attr a k f v w = (w', Ok tt) /\ edited cs a (set_row cs k f v rows) w w'.
  Proof.
    intros I0 K0 C0 AT VV. destruct (assign_step fuel cs tops U RL w a rows CA DS OF k f v x0 c0 I0 K0 C0 AT VV) as (w' & E & ED). exists w'. split; [|exact ED].
    destruct (ca_rows _ _ _ _ CA x0 I0) as (r & o & L & H & M). rewrite K0 in L. unfold assign_to, bind in E. rewrite (get_there w a _ _ r L), (hget_eq _ _ _ H) in E. unfold lift in E.
    unfold keep_attr, bind. rewrite (get_there w a _ _ r L), (hget_eq _ _ _ H). unfold lift. destruct (setattr_val o f v) as [o'|]; [|discriminate]. unfold hset, modify in *. injection E as E. rewrite E.
    destruct ED as (_ & _ & _ & _ & CA'). assert (L' : lookup w' a (fst k) (snd k) = Some r) by (rewrite <- E; exact L).
    assert (DS' : dataset cs tops (set_row cs k f v rows)) by (rewrite set_row_eq; exact (nr_dataset fuel cs tops U RL rows k f v x0 c0 DS OF K0 C0 AT)).
    destruct (ca_keyed w' a cs _ tops CA' DS' _ _ _ L') as (o2 & H2 & T2 & U2 & _). exact (update_stored w' a _ _ r o2 L' H2 T2 U2).
  Qed.
  Lemma kadd x ad : nth_error (w_ads w) a = Some ad -> ad_classes ad = cs -> In x U -> (forall y, In y rows -> K y <> K x) -> (forall q, r_parent x = Some q -> exists y, In y rows /\ K y = q) ->
    exists w', keep_row a x w = (w', Ok tt) /\ edited cs a (rows ++ [x]) w w'.
  Proof.
    intros A EC IU NEW PAR. destruct (EditFacts.add_step fuel cs tops U RL F2 w a rows CA DS OF x ad A EC IU NEW PAR) as (w' & E & ED). exists w'. split; [|exact ED].
    pose proof (add_dataset fuel cs tops U RL rows DS x IU NEW PAR) as DS'. destruct ED as (_ & _ & _ & _ & CA').
    unfold load_row, bind in E. unfold keep_row, bind. unfold get_adapter in *. rewrite A in *. destruct (dget (ad_classes ad) (r_type x)) as [c|]; [|discriminate].
    destruct (lift _ w) as [w1 [o|]]; [|discriminate]. destruct (halloc o w1) as [w2 [r|]]; [|discriminate]. destruct (st_add a r w2) as [w3 [[]|]]; [|discriminate].
    destruct (r_parent x) as [p|]; [|exact E]. destruct (st_get a (MName (fst p)) (IdStr (snd p)) w3) as [w4 [pr|]] eqn:G; [|discriminate].
    destruct (hget pr w4) as [w5 [po|]] eqn:H5; [|discriminate]. assert (w5 = w4) by exact (hget_state _ _ _ _ H5). subst w5.
    destruct (hget r w4) as [w5 [co|]] eqn:H6; [|discriminate]. assert (w5 = w4) by exact (hget_state _ _ _ _ H6). subst w5.
    unfold lift in *. destruct (add_child po co) as [po'|]; [|discriminate]. unfold hset, modify in *. injection E as E. rewrite E.
    assert (LK : lookup w' a (fst p) (snd p) = Some pr).
    { rewrite <- E. apply (got_stored a (fst p) (snd p) w3 w4 pr G). destruct (ca_local _ _ _ _ CA') as (ad' & d' & A' & B' & _). exists ad', d'. rewrite <- E in A'. auto. }
    destruct (ca_keyed w' a cs _ tops CA' DS' _ _ _ LK) as (o2 & H2 & T2 & U2 & _). exact (update_stored w' a _ _ pr o2 LK H2 T2 U2).
  Qed.
  Lemma kdrop p x0 : In x0 rows -> r_parent x0 = p -> exists w', keep_drop fuel a p (K x0) w = (w', Ok tt) /\ edited cs a (cut_rows cs [K x0] rows) w w'.
  Proof.
    intros I0 P0. destruct (drop_step fuel cs tops U RL F2 w a rows CA DS OF p x0 I0 P0) as (w' & E & ED). exists w'. split; [|exact ED]. rewrite <- E.
    destruct (ca_rows _ _ _ _ CA x0 I0) as (r & o & L & H & M). unfold keep_drop, drop_from, bind. rewrite (get_there w a _ _ r L). destruct p as [p|]; [|reflexivity].
    destruct (ca_before cs rows tops DS x0 p I0 P0) as (l1 & y & m1 & cy & ER & Iy & Ky & _). assert (Jy : In y rows) by (rewrite ER; apply in_app_iff; now left).
    destruct (ca_rows _ _ _ _ CA y Jy) as (pr & po & Lp & Hp & Mp). pose proof (like_key cs rows y po (row_good cs rows tops DS y Jy) Mp) as (KT & KU). rewrite Ky in Lp, KT, KU.
    rewrite (get_there w a _ _ pr Lp), (hget_eq _ _ _ Hp), (hget_eq _ _ _ H). unfold lift. destruct (remove_child po o) as [po'|e] eqn:RC; [|reflexivity]. unfold hset, modify.
    assert (Q : get_type po' = get_type po /\ get_unique_id po' = get_unique_id po).
    { unfold remove_child in RC. destruct (dget (c_children (o_cls po)) (get_type o)); [|discriminate]. destruct (getattr_kids po _); [|discriminate]. cbn [rbind] in RC. destruct (get_unique_id o); [|discriminate]. cbn [rbind] in RC.
      destruct (smem _ _); [|discriminate]. injection RC as <-. split; reflexivity. }
    destruct Q as (Q1 & Q2). rewrite (update_stored (set_heap w (list_set (w_heap w) pr po')) a (fst p) (snd p) pr po'); [reflexivity|exact Lp| |congruence|congruence].
    cbn [w_heap set_heap]. eapply nth_list_set_eq. exact Hp.
  Qed.
End Local.
