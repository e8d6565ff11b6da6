(** * DifferCount: how far the progress count goes (C15). *)
From Verif Require Export DifferThree.

Notation key := (string * string)%type.

Lemma NoDup_app_l {A} (l m : list A) : NoDup (l ++ m) -> NoDup l.
Proof. induction l as [|x l IH]; intros H; [constructor|]. inversion H; subst. constructor; [intros I; apply H2, in_app_iff; auto|auto]. Qed.
Lemma NoDup_app_r {A} (l m : list A) : NoDup (l ++ m) -> NoDup m.
Proof. induction l as [|x l IH]; intros H; [exact H|]. inversion H; subst. auto. Qed.
Lemma NoDup_app_intro {A} (l m : list A) : NoDup l -> NoDup m -> (forall x, In x l -> ~ In x m) -> NoDup (l ++ m).
Proof.
  induction l as [|x l IH]; intros NL NM D; [exact NM|]. inversion NL; subst. simpl. constructor.
  - rewrite in_app_iff. intros [I|I]; [contradiction|exact (D x (or_introl eq_refl) I)].
  - apply IH; auto. intros y I. apply D. now right.
Qed.
Lemma map_Ok_inj (us vs : list string) : map (@Ok string) us = map Ok vs -> us = vs.
Proof. revert vs. induction us as [|u us IH]; intros [|v vs] H; try discriminate; [reflexivity|]. injection H as -> H. f_equal. auto. Qed.
Lemma keep_first_length l : length (keep_first l) <= length l.
Proof.
  apply NoDup_incl_length; [apply NoDup_keep_first|]. intros x I. now rewrite In_keep_first in I.
Qed.

Definition one (o : option obj) : nat := match o with Some _ => 1 | None => 0 end.
Lemma own_sum ss us L : map get_unique_id ss = map Ok us -> NoDup L -> incl us L ->
  list_sum (map (fun u => one (with_uid u ss)) L) = length (keep_first us).
Proof.
  intros E ND I.
  assert (X : list_sum (map (fun u => one (with_uid u ss)) L) = length (filter (fun u => smem u us) L)).
  { clear ND I. induction L as [|u L IH]; [reflexivity|]. cbn [map filter]. rewrite list_sum_cons, IH.
    destruct (with_uid u ss) as [o|] eqn:W; destruct (smem u us) eqn:M; cbn [one length]; try reflexivity.
    - apply with_uid_Some in W as [I U]. rewrite smem_false in M. exfalso. apply M.
      assert (J : In (Ok u) (map Ok us)) by (rewrite <- E, <- U; now apply in_map).
      apply in_map_iff in J as (v & V & J). now injection V as ->.
    - apply (with_uid_None u ss us E) in W. now apply smem_In in M. }
  rewrite X. apply Permutation_length, NoDup_Permutation; [now apply NoDup_filter|apply NoDup_keep_first|].
  intros x. rewrite filter_In, smem_In, In_keep_first. split; [tauto|auto].
Qed.

Lemma lone_count s d n : one_sided s (c_children (o_cls d)) n -> length (lone_refs (Some s) (Some d)) = n.
Proof.
  intros (ls & F & ->). simpl. induction F as [|tf l tfs ls E F IH]; [reflexivity|]. simpl flat_map. rewrite E, app_length, map_length, IH.
  cbn [map]. now rewrite list_sum_cons.
Qed.
Lemma child_types_fun so do mp k mp' k' : child_types so do mp k -> child_types so do mp' k' -> mp = mp'.
Proof. destruct so, do; simpl; try tauto; intros [-> _] [-> _]; reflexivity. Qed.
Lemma child_types_lone so do mp k : child_types so do mp k -> k = length (lone_refs so do) + length (lone_refs do so).
Proof.
  destruct so as [s|], do as [d|]; simpl child_types; try tauto; try (intros [_ ->]; reflexivity).
  intros (_ & n & m & N & M & ->). now rewrite (lone_count _ _ _ N), (lone_count _ _ _ M).
Qed.

Section Count.
  Variables (flags : N) (sn dn : string) (rs rd : list string -> string -> result (list obj)).
  Notation faith := (faithful flags sn dn rs rd).
  Notation reach := (reached flags rs rd).

  Lemma count_list n : forall t ss dd es k A B, faith n ss dd es k -> reach n t ss dd A B ->
    k + esides es <= length A + length B /\ (NoDup A -> NoDup B -> length A + length B <= 2 * k + esides es).
  Proof.
    induction n as [|n IH]; intros t ss dd es k A B H R; [destruct H|].
    destruct H as (us & vs & outs & E1 & E2 & C & F & -> & ->).
    destruct R as (us' & vs' & outs2 & E1' & E2' & F2 & -> & ->).
    rewrite E1 in E1'. rewrite E2 in E2'. apply map_Ok_inj in E1'. apply map_Ok_inj in E2'. subst us' vs'.
    assert (X : forall L outs outs2,
      Forall2 (fun u out => pair_ok flags sn dn rs rd (faith n) (with_uid u ss) (with_uid u dd) out) L outs ->
      Forall2 (fun u (k : list key * list key) => reached_below flags rs rd (reach n) (with_uid u ss) (with_uid u dd) (fst k) (snd k)) L outs2 ->
      let own := list_sum (map (fun u => one (with_uid u ss)) L) + list_sum (map (fun u => one (with_uid u dd)) L) in
      list_sum (map snd outs) + esides (somes outs) <= own + length (flat_map fst outs2) + length (flat_map snd outs2) /\
      (NoDup (flat_map fst outs2) -> NoDup (flat_map snd outs2) ->
       own + length (flat_map fst outs2) + length (flat_map snd outs2) <= 2 * list_sum (map snd outs) + esides (somes outs))).
    { clear - IH. intros L outs outs2 F. revert outs2. induction F as [|u [oe k] L outs P F IHF]; intros outs2 F2; inversion F2 as [|? [A B] ? outs2' R F2']; subst.
      - cbv zeta. cbn. split; intros; lia.
      - specialize (IHF _ F2'). destruct IHF as [B1 B2].
        cbv zeta. cbn [map fst snd flat_map] in *. rewrite !list_sum_cons, !app_length, somes_cons.
        set (so := with_uid u ss) in *. set (do := with_uid u dd) in *.
        assert (Y : k + out_sides (oe, k) <= one so + one do + length A + length B /\
          (NoDup A -> NoDup B -> one so + one do + length A + length B <= 2 * k + out_sides (oe, k))).
        { destruct P as ((o & nm & O & _) & [[S E]|[NS (e & mp & sk & kids & E & D & CT & FK & G)]]); injection E as -> ->.
          - destruct R as [(_ & -> & ->)|[NS _]]; [|contradiction]. unfold out_sides. cbn.
            destruct so, do; try discriminate O; cbn; lia.
          - destruct R as [(S & _)|[_ (mp' & k' & kids2 & CT' & FK2 & -> & ->)]]; [contradiction|].
            rewrite <- (child_types_fun _ _ _ _ _ _ CT CT') in FK2. clear CT' mp' k'.
            pose proof (child_types_lone _ _ _ _ CT) as LK.
            unfold out_sides. cbn [fst]. rewrite esides_cons, (tree_sides_grouped _ _ G). change (esides []) with 0.
            assert (SD : sides e = one so + one do).
            { destruct D as (_ & _ & D3 & D4 & _). unfold sides. rewrite D3, D4. destruct so, do; reflexivity. }
            assert (Z : list_sum (map snd kids) + esides (flat_map fst kids) <= length (flat_map fst kids2) + length (flat_map snd kids2) /\
              (NoDup (flat_map fst kids2) -> NoDup (flat_map snd kids2) ->
               length (flat_map fst kids2) + length (flat_map snd kids2) <= 2 * list_sum (map snd kids) + esides (flat_map fst kids))).
            { clear - FK FK2 IH. revert kids2 FK2. induction FK as [|tf [es k] mp kids (ss' & dd' & K1 & K2 & R) FK IHK]; intros kids2 FK2;
                inversion FK2 as [|? [A B] ? kids2' (ss2 & dd2 & K1' & K2' & R') FK2']; subst; [cbn; split; intros; lia|].
              rewrite K1 in K1'. rewrite K2 in K2'. injection K1' as <-. injection K2' as <-.
              cbn [fst snd] in R, R'. destruct (IH _ _ _ _ _ _ _ R R') as [C1 C2]. destruct (IHK _ FK2') as [C3 C4].
              cbn [map fst snd flat_map]. rewrite list_sum_cons, esides_app, !app_length. split; [lia|].
              intros N1 N2. specialize (C2 (NoDup_app_l _ _ N1) (NoDup_app_l _ _ N2)). specialize (C4 (NoDup_app_r _ _ N1) (NoDup_app_r _ _ N2)). lia. }
            destruct Z as [Z1 Z2]. rewrite !app_length. split; [lia|]. intros N1 N2.
            specialize (Z2 (NoDup_app_r _ _ N1) (NoDup_app_r _ _ N2)). lia. }
        destruct Y as [Y1 Y2].
        assert (ES : esides (match oe with Some e => [e] | None => [] end ++ somes outs) = out_sides (oe, k) + esides (somes outs)).
        { rewrite esides_app. unfold out_sides. cbn [fst]. destruct oe; reflexivity. }
        rewrite ES. split; [lia|]. intros N1 N2.
        specialize (Y2 (NoDup_app_l _ _ N1) (NoDup_app_l _ _ N2)). specialize (B2 (NoDup_app_r _ _ N1) (NoDup_app_r _ _ N2)). lia. }
    specialize (X _ _ _ F F2). cbv zeta in X.
    rewrite (own_sum ss us _ E1) in X; [|apply NoDup_keep_first|intros x I; rewrite In_keep_first, in_app_iff; auto].
    rewrite (own_sum dd vs _ E2) in X; [|apply NoDup_keep_first|intros x I; rewrite In_keep_first, in_app_iff; auto].
    destruct X as [X1 X2]. rewrite <- (Forall2_length' _ _ _ F), !app_length, !map_length.
    pose proof (keep_first_length us). pose proof (keep_first_length vs).
    assert (length (keep_first us) <= length (keep_first (us ++ vs))).
    { apply NoDup_incl_length; [apply NoDup_keep_first|]. intros x. rewrite !In_keep_first, in_app_iff. auto. }
    assert (length (keep_first vs) <= length (keep_first (us ++ vs))).
    { apply NoDup_incl_length; [apply NoDup_keep_first|]. intros x. rewrite !In_keep_first, in_app_iff. auto. }
    split; [lia|]. intros N1 N2. specialize (X2 (NoDup_app_r _ _ N1) (NoDup_app_r _ _ N2)).
    assert (NoDup us) by (eapply NoDup_map_inv; eapply NoDup_app_l; exact N1).
    assert (NoDup vs) by (eapply NoDup_map_inv; eapply NoDup_app_l; exact N2).
    rewrite !keep_first_id in X2 by assumption. lia.
  Qed.
End Count.

Lemma lone_perm (l l' : list string) : NoDup l -> NoDup l' -> (forall t, In t l <-> In t l') -> Permutation l l'.
Proof. intros. now apply NoDup_Permutation. Qed.

Lemma count_diff flags n w src dst sa da gs k A B : faithful_diff flags n w src dst sa da gs k ->
  reached_diff flags n w src dst sa da A B ->
  k + tree_sides gs <= length A + length B /\ (NoDup A -> NoDup B -> length A + length B <= 2 * k + tree_sides gs).
Proof.
  intros (lone & others & per & L1 & L2 & FL & F & G & ->) (lone' & lk & per' & L1' & L2' & FL' & F' & -> & ->).
  assert (PE : Permutation lone' lone) by (apply lone_perm; auto; intros t; rewrite L2, L2'; tauto).
  destruct (Forall2_perm _ _ _ _ FL' PE) as (lk' & FL2 & P).
  assert (LL : list_sum others = length (flat_map fst lk) + length (flat_map snd lk)).
  { rewrite (Permutation_length (Permutation_flat_map fst P)), (Permutation_length (Permutation_flat_map snd P)).
    clear - FL FL2. revert lk' FL2. induction FL as [|t m lone others (l & -> & E) FL IH]; intros lk' FL2; inversion FL2 as [|? kk ? lk2 (l' & us & U & E') FL2']; subst; [reflexivity|].
    rewrite list_sum_cons, (IH _ FL2'). cbn [flat_map]. rewrite !app_length.
    assert (LU : forall l us, map get_unique_id l = map Ok us -> length l = length us).
    { intros x y H. rewrite <- (map_length get_unique_id x), H, map_length. reflexivity. }
    destruct (smem t (ad_top da)); destruct E' as [E' ->]; rewrite E in E'; injection E' as <-; cbn [fst snd length]; rewrite map_length, (LU _ _ U); lia. }
  rewrite (tree_sides_grouped _ _ G), !flat_map_app, !app_length.
  assert (Z : list_sum (map snd per) + esides (flat_map fst per) <= length (flat_map fst per') + length (flat_map snd per') /\
              (NoDup (flat_map fst per') -> NoDup (flat_map snd per') ->
               length (flat_map fst per') + length (flat_map snd per') <= 2 * list_sum (map snd per) + esides (flat_map fst per))).
  { clear - F F'. revert per' F'. induction F as [|t [es k] mp per (ss' & dd' & K1 & K2 & R) FK IHK]; intros per' FK2;
      inversion FK2 as [|? [A B] ? kids2' (ss2 & dd2 & K1' & K2' & R') FK2']; subst; [cbn; split; intros; lia|].
    rewrite K1 in K1'. rewrite K2 in K2'. injection K1' as <-. injection K2' as <-.
    cbn [fst snd] in R, R'. destruct (count_list _ _ _ _ _ _ _ _ _ _ _ _ _ R R') as [C1 C2]. destruct (IHK _ FK2') as [C3 C4].
    cbn [map fst snd flat_map]. rewrite list_sum_cons, esides_app, !app_length. split; [lia|].
    intros N1 N2. specialize (C2 (NoDup_app_l _ _ N1) (NoDup_app_l _ _ N2)). specialize (C4 (NoDup_app_r _ _ N1) (NoDup_app_r _ _ N2)). lia. }
  destruct Z as [Z1 Z2]. split; [lia|]. intros N1 N2. specialize (Z2 (NoDup_app_r _ _ N1) (NoDup_app_r _ _ N2)). lia.
Qed.

Lemma stored_keys_count w a ad d : nth_error (w_ads w) a = Some ad -> ad_store ad = SLocal d -> length (stored_keys d) = count_all w a.
Proof.
  intros H E. unfold count_all. rewrite H, E. unfold stored_keys. clear H E.
  induction d as [|[m b] d IH]; [reflexivity|]. cbn [flat_map map fst snd]. rewrite app_length, map_length. unfold dkeys at 1. rewrite map_length.
  rewrite list_sum_cons. f_equal. exact IH.
Qed.
Lemma stored_keys_NoDup d : NoDup (dkeys d) -> (forall m b, In (m, b) d -> NoDup (dkeys b)) -> NoDup (stored_keys d).
Proof.
  intros ND NB. unfold stored_keys. induction d as [|[m b] d IH]; [constructor|]. cbn [flat_map fst snd]. simpl in ND. inversion ND as [|? ? N1 N2]; subst.
  apply NoDup_app_intro.
  - apply FinFun.Injective_map_NoDup; [intros x y E; congruence|]. apply (NB m). now left.
  - apply IH; [exact N2|]. intros m' b' I. apply (NB m'). now right.
  - intros [t u] I J. apply in_map_iff in I as (x & E & _). injection E as <- <-.
    apply in_flat_map in J as ([m' b'] & J & K). simpl in K. apply in_map_iff in K as (y & E & _). injection E as <- _.
    apply N1. apply in_map_iff. exists (m', b'). auto.
Qed.

Lemma progress_bound fuel dst src dc flags cb w sa da d ds dd A B : w_ok w ->
  nth_error (w_ads w) src = Some sa -> nth_error (w_ads w) dst = Some da ->
  ad_store sa = SLocal ds -> ad_store da = SLocal dd ->
  snd (diff_from fuel dst src dc flags cb w) = Ok d ->
  reached_diff flags fuel w src dst sa da A B ->
  NoDup A -> NoDup B -> incl A (stored_keys ds) -> incl B (stored_keys dd) ->
  d_processed d <= count_all w src + count_all w dst /\
  (NoDup (stored_keys ds) -> NoDup (stored_keys dd) -> incl (stored_keys ds) A -> incl (stored_keys dd) B ->
   d_processed d = tree_sides (d_groups d) -> d_processed d = count_all w src + count_all w dst).
Proof.
  intros OK HS HD ES ED H R NA NB IA IB. apply (diff_from_iff _ _ _ _ _ _ _ _ _ OK HS HD) in H as (k & F & _ & E).
  destruct (count_diff _ _ _ _ _ _ _ _ _ _ _ F R) as [C1 C2]. specialize (C2 NA NB).
  rewrite <- (stored_keys_count _ _ _ _ HS ES), <- (stored_keys_count _ _ _ _ HD ED).
  pose proof (NoDup_incl_length NA IA). pose proof (NoDup_incl_length NB IB). split; [lia|].
  intros NS ND IS ID Z. pose proof (NoDup_incl_length NS IS). pose proof (NoDup_incl_length ND ID). lia.
Qed.
