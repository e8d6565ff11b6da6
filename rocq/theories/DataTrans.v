(** * DataTrans: having no differences is transitive. *)
From Verif Require Import DataSpec DifferLast ConvFirst DataOrder.

Lemma keep_first_more a b : incl b a -> keep_first (a ++ b) = keep_first a.
Proof.
  intros I. rewrite keep_first_app, filter_none, app_nil_r; [reflexivity|]. intros x J. rewrite In_keep_first in J. apply I in J. apply smem_In in J. now rewrite J.
Qed.
Lemma dict_eq_trans a b c : NoDup (dkeys a) -> dict_eq a b = true -> dict_eq b c = true -> dict_eq a c = true.
Proof.
  unfold dict_eq. rewrite !andb_true_iff, !Nat.eqb_eq, !forallb_forall. intros ND [L H] [M G]. split; [congruence|].
  intros [k v] I. specialize (H _ I). simpl in *. destruct (dget b k) as [v'|] eqn:E; [|discriminate].
  specialize (G (k, v') (dget_Some_In _ _ _ E)). simpl in G. destruct (dget c k) as [v''|]; [|discriminate]. eapply py_eq_trans; eauto.
Qed.
Definition still (es : list elem) : Prop := forall x, In x (flat_map elem_all es) -> e_action x = None.
Lemma still_app l m : still (l ++ m) <-> still l /\ still m.
Proof.
  unfold still. setoid_rewrite flat_map_app. setoid_rewrite in_app_iff. firstorder.
Qed.
Lemma still_cons e l : still (e :: l) <-> (e_action e = None /\ forall x, occurs x (e_kids e) -> e_action x = None) /\ still l.
Proof.
  change (e :: l) with ([e] ++ l). rewrite still_app. unfold still at 1. simpl. split.
  - intros [A B]. split; [|exact B]. split; [apply A; rewrite app_nil_r; apply In_elem_all_iff; now left|].
    intros x O. apply A. rewrite app_nil_r. apply In_elem_all_iff. now right.
  - intros [[A C] B]. split; [|exact B]. intros x I. rewrite app_nil_r in I. apply In_elem_all_iff in I as [->|I]; auto.
Qed.
Lemma still_grouped gs es : grouped gs es -> (forall x, occurs x gs -> e_action x = None) <-> still es.
Proof. intros G. unfold still. split; intros H x I; apply H; apply (occurs_grouped _ _ _ G); exact I. Qed.
Lemma action_none e s d : e_src e = Some s -> e_dst e = Some d ->
  (e_action e = None <-> forall k x y, dget s k = Some x -> dget d k = Some y -> py_eq x y = true).
Proof.
  intros S D. pose proof (action_update e) as U. pose proof (action_create e) as C. pose proof (action_delete e) as DE. split.
  - intros N k x y A B. destruct (py_eq x y) eqn:P; [reflexivity|]. exfalso.
    assert (X : e_action e = Some AUpdate); [|congruence]. apply U. exists s, d. repeat split; auto. exists k, x, y. auto.
  - intros H. destruct (e_action e) as [[]|] eqn:E; [| | |reflexivity].
    + destruct (proj1 C eq_refl) as [_ X]. congruence.
    + destruct (proj1 U eq_refl) as (s' & d' & S' & D' & k & x & y & A & B & P). rewrite S in S'. rewrite D in D'. injection S' as <-. injection D' as <-.
      rewrite (H k x y A B) in P. discriminate.
    + destruct (proj1 DE eq_refl) as [X _]. congruence.
Qed.
Lemma dget_dump o names k : dget (dump_include o names) k = if smem k names then dget (o_vals o) k else None.
Proof.
  unfold dump_include. induction (o_vals o) as [|[k' v] l IH]; simpl; [now destruct (smem k names)|].
  destruct (String.eqb_spec k k') as [<-|N].
  - destruct (smem k names) eqn:M; simpl; [now rewrite String.eqb_refl|]. rewrite IH. reflexivity.
  - destruct (smem k' names); simpl; [|exact IH]. destruct (String.eqb_spec k k'); [contradiction|exact IH].
Qed.

Section Trans.
  Variable H : obj -> Prop.
  Hypothesis Hcls : forall o o', H o -> H o' -> get_type o = get_type o' -> o_cls o = o_cls o'.
  Hypothesis Hattr : forall o k, H o -> In k (c_attributes (o_cls o)) -> dget (o_vals o) k <> None.
  Hypothesis Hflag : forall o, H o -> N.testbit (o_flags o) 0 = false /\ N.testbit (o_flags o) 2 = false /\ N.testbit (o_flags o) 3 = false.
  Hypothesis Hdict : forall o, H o -> NoDup (dkeys (o_vals o)).
  Variables f1 f2 f3 : N.
  Definition quiet_flags (f : N) : Prop := N.testbit f 1 = false /\ N.testbit f 2 = false.
  Hypothesis F1 : quiet_flags f1.
  Hypothesis F2 : quiet_flags f2.
  Hypothesis F3 : quiet_flags f3.
  Variables na nb nc : string.
  Variables ra rb rc : list string -> string -> result (list obj).
  Definition from (r : list string -> string -> result (list obj)) : Prop := forall us t l o, r us t = Ok l -> In o l -> H o.
  Hypothesis Ra : from ra.
  Hypothesis Rb : from rb.
  Hypothesis Rc : from rc.

  Definition oH (o : option obj) : Prop := match o with Some x => H x | None => True end.
  Lemma not_suppressed f so do : quiet_flags f -> oH so -> oH do -> ~ suppressed f so do.
  Proof.
    intros [A B] S D. destruct so as [s|], do as [d|]; simpl in *; try tauto.
    - destruct (Hflag _ S) as (X & _). destruct (Hflag _ D) as (Y & _). intuition congruence.
    - destruct (Hflag _ S) as (X & Y & _). intuition congruence.
    - destruct (Hflag _ D) as (X & _ & Y). intuition congruence.
  Qed.
  Lemma with_H u l : (forall o, In o l -> H o) -> oH (with_uid u l).
  Proof. intros G. destruct (with_uid u l) as [o|] eqn:E; [|exact I]. apply with_uid_Some in E as [I _]. now apply G. Qed.
  Lemma kids_H r o f t l : from r -> kids_of r o f t = Ok l -> forall x, In x l -> H x.
  Proof.
    intros R E x I. destruct o as [o|]; simpl in E; [|injection E as <-; destruct I]. destruct (dget (o_kids o) f); [|discriminate]. eapply R; eauto.
  Qed.
  (** an unsuppressed pair without differences has two objects *)
  Lemma both f sn dn rs rd rec so do out : quiet_flags f -> oH so -> oH do -> pair_ok f sn dn rs rd rec so do out ->
    (forall e, fst out = Some e -> e_action e = None) ->
    exists s d e mp sk kids, so = Some s /\ do = Some d /\ out = (Some e, sk + list_sum (map snd kids)) /\ describes sn dn e so do /\
      child_types so do mp sk /\
      Forall2 (fun tf (k : list elem * nat) => exists ss dd, kids_of rs so (snd tf) (fst tf) = Ok ss /\
                 kids_of rd do (snd tf) (fst tf) = Ok dd /\ rec ss dd (fst k) (snd k)) mp kids /\
      grouped (e_kids e) (flat_map fst kids).
  Proof.
    intros Q S D (_ & [[X _]|[_ (e & mp & sk & kids & -> & DE & CT & FK & G)]]) A; [exfalso; exact (not_suppressed _ _ _ Q S D X)|].
    specialize (A e eq_refl). destruct DE as (D1 & D2 & D3 & D4 & o & O & D5).
    destruct so as [s|], do as [d|]; cbn [option_map] in *.
    - exists s, d, e, mp, sk, kids. split; [reflexivity|]. split; [reflexivity|]. split; [reflexivity|].
      split; [split; [exact D1|]; split; [exact D2|]; split; [exact D3|]; split; [exact D4|]; exists o; auto|]. auto.
    - exfalso. assert (e_action e = Some ACreate) by (apply action_create; rewrite D3, D4; split; congruence). congruence.
    - exfalso. assert (e_action e = Some ADelete) by (apply action_delete; rewrite D3, D4; split; congruence). congruence.
    - discriminate.
  Qed.
  Lemma one_sided_self s : one_sided s (c_children (o_cls s)) 0.
  Proof.
    exists []. split; [|reflexivity]. rewrite filter_none; [constructor|]. intros [t f] I. simpl. apply negb_false_iff. unfold dmem.
    destruct (dget (c_children (o_cls s)) t) eqn:E; [reflexivity|]. apply dget_None in E. exfalso. apply E. apply in_map_iff. exists (t, f). auto.
  Qed.
  Lemma mapping_self (c : dict string) : filter (fun tf : string * string => dmem c (fst tf)) c = c.
  Proof.
    apply filter_all. intros [t f] I. simpl. unfold dmem. destruct (dget c t) eqn:E; [reflexivity|]. apply dget_None in E. exfalso. apply E. apply in_map_iff. exists (t, f). auto.
  Qed.
  Lemma types_self s d mp sk : o_cls s = o_cls d -> child_types (Some s) (Some d) mp sk -> mp = c_children (o_cls s).
  Proof. intros E (-> & _). rewrite <- E. apply mapping_self. Qed.
  Lemma types_self' s d : o_cls s = o_cls d -> child_types (Some s) (Some d) (c_children (o_cls s)) 0.
  Proof.
    intros E. split; [rewrite <- E; symmetry; apply mapping_self|]. exists 0, 0. rewrite <- E. repeat split; [apply one_sided_self|].
    rewrite E. apply one_sided_self.
  Qed.
  Lemma attrs_trans s m d x y z : H s -> H m -> H d -> o_cls s = o_cls m -> o_cls m = o_cls d ->
    e_src x = Some (get_attrs s) -> e_dst x = Some (get_attrs m) -> e_action x = None ->
    e_src y = Some (get_attrs m) -> e_dst y = Some (get_attrs d) -> e_action y = None ->
    e_src z = Some (get_attrs s) -> e_dst z = Some (get_attrs d) -> e_action z = None.
  Proof.
    intros HS HM HD C1 C2 X1 X2 XA Y1 Y2 YA Z1 Z2. rewrite (action_none x _ _ X1 X2) in XA. rewrite (action_none y _ _ Y1 Y2) in YA.
    apply (action_none z _ _ Z1 Z2). intros k a c A C. unfold get_attrs in *.
    assert (B : exists b, dget (dump_include m (c_attributes (o_cls m))) k = Some b).
    { rewrite dget_dump in A |- *. rewrite C1 in A. destruct (smem k (c_attributes (o_cls m))) eqn:M; [|discriminate].
      apply smem_In in M. specialize (Hattr m k HM M). destruct (dget (o_vals m) k); [eauto|contradiction]. }
    destruct B as [b B]. eapply py_eq_trans; [eapply XA; eauto|eapply YA; eauto].
  Qed.
  Lemma corresponding_trans s m d : H s -> corresponding s m -> corresponding m d -> corresponding s d.
  Proof.
    intros HS (T & (n & N1 & N2) & I) (T' & (n' & N1' & N2') & I'). split; [congruence|]. split; [exists n; split; congruence|].
    eapply dict_eq_trans; eauto. unfold get_identifiers. apply NoDup_dump. now apply Hdict.
  Qed.

  Definition same_tags (es es' : list elem) : Prop := map tagged es = map tagged es'.
  Lemma trans n : forall m aa bb cc es k es2 k2,
    (forall o, In o aa -> H o) -> (forall o, In o bb -> H o) -> (forall o, In o cc -> H o) ->
    faithful f1 na nb ra rb n aa bb es k -> still es ->
    faithful f2 nb nc rb rc m bb cc es2 k2 -> still es2 ->
    exists es3 k3, faithful f3 na nc ra rc n aa cc es3 k3 /\ still es3 /\ same_tags es es3.
  Proof.
    induction n as [|n IH]; intros m aa bb cc es k es2 k2 HA HB HC A SA B SB; [destruct A|]. destruct m as [|m]; [destruct B|].
    destruct A as (us & vs & outs & E1 & E2 & C & F & -> & _). destruct B as (vs' & ws & outs2 & E2' & E3 & C' & F' & -> & _).
    assert (vs' = vs) as -> by (rewrite E2 in E2'; revert E2'; clear; revert vs'; induction vs as [|v vs IHv]; intros [|v' vs'] E; try discriminate; auto; simpl in E; injection E as -> E; f_equal; auto).
    assert (ST1 : forall out, In out outs -> forall e, fst out = Some e -> e_action e = None).
    { intros [oe q] I e E. simpl in E. subst oe. apply SA. apply in_flat_map. exists e. split; [apply In_somes; eauto|]. apply In_elem_all_iff. now left. }
    assert (ST2 : forall out, In out outs2 -> forall e, fst out = Some e -> e_action e = None).
    { intros [oe q] I e E. simpl in E. subst oe. apply SB. apply in_flat_map. exists e. split; [apply In_somes; eauto|]. apply In_elem_all_iff. now left. }
    assert (BA : forall u, In u us \/ In u vs -> exists s d, with_uid u aa = Some s /\ with_uid u bb = Some d).
    { intros u I. rewrite <- in_app_iff, <- In_keep_first in I. destruct (Forall2_in_l _ _ _ _ F I) as (out & J & P).
      destruct (both _ _ _ _ _ _ _ _ _ F1 (with_H u aa HA) (with_H u bb HB) P (ST1 _ J)) as (s & d & _ & _ & _ & _ & S & D & _). eauto. }
    assert (BB : forall u, In u vs \/ In u ws -> exists s d, with_uid u bb = Some s /\ with_uid u cc = Some d).
    { intros u I. rewrite <- in_app_iff, <- In_keep_first in I. destruct (Forall2_in_l _ _ _ _ F' I) as (out & J & P).
      destruct (both _ _ _ _ _ _ _ _ _ F2 (with_H u bb HB) (with_H u cc HC) P (ST2 _ J)) as (s & d & _ & _ & _ & _ & S & D & _). eauto. }
    assert (mem : forall u l l', map get_unique_id l = map Ok l' -> with_uid u l <> None -> In u l').
    { intros u l l' E N. destruct (in_dec string_dec u l') as [I|I]; [exact I|]. apply (with_uid_None u l l' E) in I. contradiction. }
    assert (VU : incl vs us). { intros u I. destruct (BA u (or_intror I)) as (s & d & S & _). apply (mem u aa us E1). congruence. }
    assert (UV : incl us vs). { intros u I. destruct (BA u (or_introl I)) as (s & d & _ & S). apply (mem u bb vs E2). congruence. }
    assert (WV : incl ws vs). { intros u I. destruct (BB u (or_intror I)) as (s & d & S & _). apply (mem u bb vs E2). congruence. }
    assert (WU : incl ws us). { intros u I. apply VU, WV, I. }
    rewrite (keep_first_more us vs VU) in F.
    assert (X : exists outs3, Forall2 (fun u out => pair_ok f3 na nc ra rc (faithful f3 na nc ra rc n) (with_uid u aa) (with_uid u cc) out) (keep_first us) outs3 /\
              still (somes outs3) /\ same_tags (somes outs) (somes outs3)).
    { assert (L : forall u, In u (keep_first us) -> In u vs) by (intros u I; rewrite In_keep_first in I; auto).
      clear VU UV WV WU BA mem E1 E2 E3 E2'. revert SA ST1. induction F as [|u out l outs P F IHF]; intros SA ST1; [exists []; split; [constructor|split; [intros x []|reflexivity]]|].
      assert (SE := SA). assert (Z : out :: outs = [out] ++ outs) by reflexivity.
      assert (SO : still (somes [out]) /\ still (somes outs)) by (apply still_app; unfold somes in *; rewrite <- flat_map_app; exact SA).
      destruct SO as [SO SR].
      destruct IHF as (outs3 & F3' & S3 & TG); [intros v I; apply L; now right|exact SR|intros o I; apply ST1; now right|].
      destruct (both _ _ _ _ _ _ _ _ _ F1 (with_H u aa HA) (with_H u bb HB) P (ST1 _ (or_introl eq_refl))) as (s & d & e & mp & sk & kids & ES & ED & -> & DE & CT & FK & G).
      assert (Iu : In u (keep_first (vs ++ ws))) by (rewrite In_keep_first, in_app_iff; left; apply L; now left).
      destruct (Forall2_in_l _ _ _ _ F' Iu) as (out2 & J & P2).
      destruct (both _ _ _ _ _ _ _ _ _ F2 (with_H u bb HB) (with_H u cc HC) P2 (ST2 _ J)) as (d' & c & e2 & mp2 & sk2 & kids2 & ES2 & ED2 & -> & DE2 & CT2 & FK2 & G2).
      assert (d' = d) as -> by congruence.
      assert (HS : H s) by (apply HA; now apply with_uid_Some in ES). assert (HDd : H d) by (apply HB; now apply with_uid_Some in ED). assert (HCc : H c) by (apply HC; now apply with_uid_Some in ED2).
      assert (C1 := C u s d ES ED). assert (C2 := C' u d c ES2 ED2).
      assert (K1 : o_cls s = o_cls d) by (apply Hcls; auto; apply C1). assert (K2 : o_cls d = o_cls c) by (apply Hcls; auto; apply C2).
      assert (SE2 : still [e2]).
      { intros x I. apply SB. simpl in I. rewrite app_nil_r in I. apply in_flat_map. exists e2. split; [apply In_somes; eauto|exact I]. }
      simpl in SO. apply still_cons in SO as [[AE KE] _]. apply still_cons in SE2 as [[AE2 KE2] _].
      rewrite (still_grouped _ _ G) in KE. rewrite (still_grouped _ _ G2) in KE2.
      rewrite ES, ED in CT, FK, DE. rewrite ES2, ED2 in CT2, FK2, DE2.
      pose proof (types_self _ _ _ _ K1 CT) as ->. pose proof (types_self _ _ _ _ K2 CT2) as ->. rewrite <- K1 in FK2.
      assert (KK : exists kids3, Forall2 (fun tf (k : list elem * nat) => exists ss dd, kids_of ra (Some s) (snd tf) (fst tf) = Ok ss /\
                 kids_of rc (Some c) (snd tf) (fst tf) = Ok dd /\ faithful f3 na nc ra rc n ss dd (fst k) (snd k)) (c_children (o_cls s)) kids3 /\
                 still (flat_map fst kids3) /\ same_tags (flat_map fst kids) (flat_map fst kids3)).
      { clear - FK FK2 KE KE2 IH Ra Rb Rc. revert kids2 FK2 KE2. induction FK as [|[t f] [x q] mp kids (ss & dd & R1 & R2 & R) FK IHK]; intros kids2 FK2 KE2.
        - exists []. split; [constructor|]. split; [intros x []|reflexivity].
        - inversion FK2 as [|? [x2 q2] ? kids2' (dd' & cc & R1' & R2' & R') FK2' Y1 Y2]; subst. cbn [fst snd flat_map] in *.
          apply still_app in KE as [KX KE]. apply still_app in KE2 as [KX2 KE2].
          destruct (IHK KE kids2' FK2' KE2) as (kids3 & FK3 & S3 & TG). rewrite R2 in R1'. injection R1' as <-.
          destruct (IH m ss dd cc x q x2 q2 (kids_H _ _ _ _ _ Ra R1) (kids_H _ _ _ _ _ Rb R2) (kids_H _ _ _ _ _ Rc R2') R KX R' KX2) as (x3 & q3 & R3 & SX & TX).
          exists ((x3, q3) :: kids3). split; [constructor; [exists ss, cc; auto|exact FK3]|]. cbn [flat_map fst]. split; [apply still_app; auto|].
          unfold same_tags in *. rewrite !map_app. congruence. }
      destruct KK as (kids3 & FK3 & KS & TK).
      destruct (grouped_exists (flat_map fst kids3)) as [gs G3]; [unfold same_tags in TK; rewrite <- TK; now apply grouped_NoDup in G|].
      destruct DE as (D1 & D2 & D3 & D4 & o & O & D5 & D6 & D7). simpl in O. injection O as <-.
      destruct DE2 as (D1' & D2' & D3' & D4' & _).
      set (e3 := mkElem (e_type e) (e_name e) (e_keys e) na nc (Some (get_attrs s)) (Some (get_attrs c)) gs).
      exists ((Some e3, 0 + list_sum (map snd kids3)) :: outs3). split; [|split].
      - constructor; [|exact F3']. rewrite ES, ED2. split; [exists s, (e_name e); auto|]. right. split; [now apply not_suppressed|].
        exists e3, (c_children (o_cls s)), 0, kids3. split; [reflexivity|]. split; [|split; [apply types_self'; congruence|split; [exact FK3|exact G3]]].
        repeat split; auto. exists s. auto.
      - rewrite somes_cons. apply still_app. split; [|exact S3]. apply still_cons. split; [|intros x []]. split.
        + exact (attrs_trans s d c e e2 e3 HS HDd HCc K1 K2 D3 D4 AE D3' D4' AE2 eq_refl eq_refl).
        + apply (still_grouped gs _ G3). exact KS.
      - rewrite !somes_cons. unfold same_tags in *. rewrite !map_app, TG. reflexivity. }
    destruct X as (outs3 & F3' & S3 & TG). exists (somes outs3), ((length us - length outs3) + (length ws - length outs3) + list_sum (map snd outs3)).
    split; [|split; [exact S3|exact TG]]. exists us, ws, outs3. split; [exact E1|]. split; [exact E3|]. split.
    - intros u s c S D. assert (I : In u us \/ In u vs) by (left; apply (mem u aa us E1); congruence).
      destruct (BA u I) as (s' & d & S' & D'). rewrite S in S'. injection S' as <-.
      assert (HS : H s) by (apply HA; now apply with_uid_Some in S). eapply corresponding_trans; eauto.
    - rewrite (keep_first_more us ws WU). auto.
  Qed.
End Trans.

Lemma some_reads w a ad t : w_ok w -> nth_error (w_ads w) a = Some ad -> exists l, objs_all w a t = Ok l.
Proof.
  intros OK A. destruct (ad_store ad) as [d|i] eqn:S; [eapply ConvEnd.all_reads; eauto|]. unfold objs_all. rewrite A, S.
  assert (G : forall ks, incl ks (dkeys (w_redis w)) -> exists l, rmapM (fun k => match dget (w_redis w) k with
    | Some o => Ok (set_o_adapter o (Some a)) | None => Err ObjectNotFound end) ks = Ok l).
  { induction ks as [|k ks IH]; intros I; [exists []; reflexivity|]. simpl. destruct (dget (w_redis w) k) as [o|] eqn:D.
    - destruct IH as [l ->]; [intros x J; apply I; now right|]. simpl. eauto.
    - apply dget_None in D. exfalso. apply D, I. now left. }
  apply G. intros k I. now apply filter_In in I as [I _].
Qed.
Lemma sub_perm (l m : list string) : NoDup l -> incl l m -> exists r, Permutation m (l ++ r).
Proof.
  revert m. induction l as [|x l IH]; intros m N I; [exists m; reflexivity|]. inversion N as [|? ? N1 N2]; subst.
  destruct (in_split x m) as (m1 & m2 & ->); [apply I; now left|].
  destruct (IH (m1 ++ m2) N2) as [r R].
  - intros y J. assert (K : In y (m1 ++ x :: m2)) by (apply I; now right). apply in_app_iff in K as [K|[->|K]]; apply in_app_iff; auto. contradiction.
  - exists r. simpl. rewrite <- R. symmetry. apply Permutation_middle.
Qed.
Lemma Forall2_app_inv' {A B} (P : A -> B -> Prop) l l' m : Forall2 P (l ++ l') m -> exists m1 m2, m = m1 ++ m2 /\ Forall2 P l m1 /\ Forall2 P l' m2.
Proof. intros F. apply Forall2_app_inv_l in F as (m1 & m2 & F1 & F2 & ->). eauto. Qed.

Section Diffs.
  Variable w : world.
  Hypothesis OK : w_ok w.
  Hypothesis SC : shared_classes w.
  Hypothesis UF : unflagged w.
  Hypothesis AP : attributes_present w.
  Hypothesis PD : proper_dicts w.
  Lemma held_attr o k : held w o -> In k (c_attributes (o_cls o)) -> dget (o_vals o) k <> None.
  Proof. intros (o0 & E & [->|[a ->]]) I; [now apply AP|]. exact (AP _ k E I). Qed.
  Lemma held_flag o : held w o -> N.testbit (o_flags o) 0 = false /\ N.testbit (o_flags o) 2 = false /\ N.testbit (o_flags o) 3 = false.
  Proof. intros (o0 & E & [->|[a ->]]); [now apply UF|exact (UF _ E)]. Qed.
  Variables (a b c : aid) (sa sb sc : adapter).
  Hypothesis EA : nth_error (w_ads w) a = Some sa.
  Hypothesis EB : nth_error (w_ads w) b = Some sb.
  Hypothesis EC : nth_error (w_ads w) c = Some sc.
  Variables f1 f2 f3 : N.
  Hypothesis F1 : quiet_flags f1.
  Hypothesis F2 : quiet_flags f2.
  Hypothesis F3 : quiet_flags f3.
  Hypothesis TOP : forall t, In t (ad_top sa) -> In t (ad_top sc) -> In t (ad_top sb).
  Hypothesis ND : NoDup (ad_top sc).

  Lemma trans_diff n m gs k gs2 k2 : faithful_diff f1 n w a b sa sb gs k -> (forall x, occurs x gs -> e_action x = None) ->
    faithful_diff f2 m w b c sb sc gs2 k2 -> (forall x, occurs x gs2 -> e_action x = None) ->
    exists gs3 k3, faithful_diff f3 n w a c sa sc gs3 k3 /\ (forall x, occurs x gs3 -> e_action x = None).
  Proof.
    intros (l1 & o1 & per & _ & _ & _ & F & G & _) S (l2 & o2 & per2 & _ & _ & _ & F' & G2 & _) S2.
    rewrite (still_grouped _ _ G) in S. rewrite (still_grouped _ _ G2) in S2.
    set (T := filter (fun t => smem t (ad_top sa)) (ad_top sc)).
    assert (NT : NoDup T) by (now apply NoDup_filter).
    assert (I1 : incl T (filter (fun t => smem t (ad_top sa)) (ad_top sb))).
    { intros t I. apply filter_In in I as [I J]. apply filter_In. split; [apply TOP; auto; now apply smem_In|exact J]. }
    assert (I2 : incl T (filter (fun t => smem t (ad_top sb)) (ad_top sc))).
    { intros t I. apply filter_In in I as [I J]. apply filter_In. split; [exact I|]. apply smem_In. apply TOP; auto; now apply smem_In. }
    destruct (sub_perm _ _ NT I1) as [r P1].
    destruct (Forall2_perm _ _ _ _ F P1) as (per' & FP & PP).
    apply Forall2_app_inv' in FP as (q & q' & -> & FQ & _).
    assert (NQ : NoDup (map tagged (flat_map fst q))).
    { apply grouped_NoDup in G. eapply Permutation_NoDup in G; [|apply Permutation_map, Permutation_flat_map; exact PP].
      rewrite flat_map_app, map_app in G. now apply NoDup_app_l in G. }
    assert (SQ : still (flat_map fst q)).
    { intros x I. apply S. eapply Permutation_in; [apply Permutation_flat_map, Permutation_flat_map; symmetry; exact PP|].
      rewrite flat_map_app, flat_map_app. apply in_app_iff. now left. }
    assert (X : exists per3, Forall2 (fun t (k : list elem * nat) => exists ss dd, objs_all w a t = Ok ss /\ objs_all w c t = Ok dd /\
       faithful f3 (ad_name sa) (ad_name sc) (objs_by w a) (objs_by w c) n ss dd (fst k) (snd k)) T per3 /\
       still (flat_map fst per3) /\ same_tags (flat_map fst q) (flat_map fst per3)).
    { clear - FQ SQ I2 F' S2 F1 F2 F3 SC UF AP PD. induction FQ as [|t [es k] T q (ss & dd & A1 & A2 & R) FQ IH].
      - exists []. split; [constructor|]. split; [intros x []|reflexivity].
      - cbn [flat_map fst snd] in *. apply still_app in SQ as [S1 SQ]. destruct IH as (per3 & F3' & S3 & TG); [intros x I; apply I2; now right|exact SQ|].
        destruct (Forall2_in_l _ _ _ _ F' (I2 t (or_introl eq_refl))) as ([es2 k2] & J & bb & cc & B1 & B2 & R2). cbn [fst snd] in *.
        rewrite A2 in B1. injection B1 as <-.
        destruct (trans (held w) (held_cls w SC) held_attr held_flag (held_dicts w PD) f1 f2 f3 F1 F2 F3 (ad_name sa) (ad_name sb) (ad_name sc)
          (objs_by w a) (objs_by w b) (objs_by w c) (fun us t l o => objs_by_held w a us t l o) (fun us t l o => objs_by_held w b us t l o) (fun us t l o => objs_by_held w c us t l o)
          n m ss dd cc es k es2 k2 (fun o => objs_all_held w a t ss o A1) (fun o => objs_all_held w b t dd o A2) (fun o => objs_all_held w c t cc o B2) R S1 R2) as (es3 & k3 & R3 & S3' & TG').
        { intros x I. apply S2. apply in_flat_map in I as (e & I & I'). apply in_flat_map. exists e. split; [|exact I']. apply in_flat_map. exists (es2, k2). auto. }
        exists ((es3, k3) :: per3). split; [constructor; [exists ss, cc; auto|exact F3']|]. cbn [flat_map fst]. split; [apply still_app; auto|].
        unfold same_tags in *. rewrite !map_app. congruence. }
    destruct X as (per3 & F3' & S3 & TG).
    destruct (grouped_exists (flat_map fst per3)) as [gs3 G3]; [unfold same_tags in TG; now rewrite <- TG|].
    destruct (NoDup_keys_lone (ad_top sa) (ad_top sc)) as (lone & NL & LN).
    destruct (Forall2_choice (fun t n => exists l, n = length l /\ objs_all w (if smem t (ad_top sc) then c else a) t = Ok l) lone) as [others FO].
    { intros t _. destruct (smem t (ad_top sc)).
      - destruct (some_reads w c sc t OK EC) as [l L]. eauto.
      - destruct (some_reads w a sa t OK EA) as [l L]. eauto. }
    exists gs3, (list_sum others + list_sum (map snd per3)). split; [|now apply (still_grouped _ _ G3)].
    exists lone, others, per3. auto 10.
  Qed.
End Diffs.
Lemma still_has d : diff_has_diffs d = false <-> forall x, occurs x (d_groups d) -> e_action x = None.
Proof.
  unfold diff_has_diffs. pose proof (groups_have_diffs_spec (d_groups d)) as X. split.
  - intros E x O. destruct (e_action x) eqn:A; [|reflexivity]. exfalso.
    assert (Y : groups_have_diffs (d_groups d) = true) by (apply X; exists x; split; [exact O|congruence]). congruence.
  - intros H. destruct (groups_have_diffs (d_groups d)); [|reflexivity]. destruct (proj1 X eq_refl) as (x & O & A). now rewrite (H x O) in A.
Qed.
Lemma diff_from_trans w a b c sa sb sc f1 f2 f3 n m dc1 dc2 dc3 cb1 cb2 cb3 d1 d2 :
  w_ok w -> shared_classes w -> unflagged w -> attributes_present w -> proper_dicts w ->
  nth_error (w_ads w) a = Some sa -> nth_error (w_ads w) b = Some sb -> nth_error (w_ads w) c = Some sc ->
  N.testbit f1 1 = false -> N.testbit f1 2 = false -> N.testbit f2 1 = false -> N.testbit f2 2 = false -> N.testbit f3 1 = false -> N.testbit f3 2 = false ->
  (forall t, In t (ad_top sa) -> In t (ad_top sc) -> In t (ad_top sb)) -> NoDup (ad_top sc) ->
  snd (diff_from n b a dc1 f1 cb1 w) = Ok d1 -> diff_has_diffs d1 = false ->
  snd (diff_from m c b dc2 f2 cb2 w) = Ok d2 -> diff_has_diffs d2 = false ->
  exists d3, snd (diff_from n c a dc3 f3 cb3 w) = Ok d3 /\ diff_has_diffs d3 = false.
Proof.
  intros OK SC UF AP PD EA EB EC A1 A2 B1 B2 C1 C2 TOP ND R1 N1 R2 N2.
  apply (diff_from_iff _ _ _ _ _ _ _ _ _ OK EA EB) in R1 as (k1 & R1 & _). apply (diff_from_iff _ _ _ _ _ _ _ _ _ OK EB EC) in R2 as (k2 & R2 & _).
  rewrite still_has in N1, N2.
  destruct (trans_diff w OK SC UF AP PD a b c sa sb sc EA EC f1 f2 f3 (conj A1 A2) (conj B1 B2) (conj C1 C2) TOP ND n m _ _ _ _ R1 N1 R2 N2) as (gs3 & k3 & R3 & N3).
  exists (mkDiff dc3 gs3 (tree_sides gs3 + k3)). split; [|now apply still_has].
  apply (diff_from_iff _ _ _ _ _ _ _ _ _ OK EA EC). exists k3. auto.
Qed.
