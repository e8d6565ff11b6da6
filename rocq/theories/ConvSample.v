(** * ConvSample: checking [alike] and [comparable] on concrete worlds with LocalStores. *)
From Verif Require Export ConvFirst RunSample.

Definition keyb (k k' : key) : bool := String.eqb (fst k) (fst k') && String.eqb (snd k) (snd k').
Lemma keyb_ok k k' : keyb k k' = true <-> k = k'.
Proof.
  unfold keyb. rewrite andb_true_iff, !String.eqb_eq. destruct k, k'. simpl. split; [intros [-> ->]; reflexivity|intros E; injection E; auto].
Qed.
Definition stored_objs (w : world) (a : aid) : list (key * obj) :=
  flat_map (fun e => match nth_error (w_heap w) (snd e) with Some o => [(fst e, o)] | None => [] end) (SyncSample.entries (local_data w a)).
Definition links (w : world) (a : aid) : list (key * key) :=
  flat_map (fun ko => flat_map (fun tf => match dget (o_kids (snd ko)) (snd tf) with
                                          | Some l => map (fun u => (fst ko, (fst tf, u))) l
                                          | None => []
                                          end) (c_children (o_cls (snd ko)))) (stored_objs w a).

Section Local.
  Variables (w : world) (a : aid).
  Hypothesis LO : local_ok w a.
  Hypothesis KY : keyed w a.

  Lemma entry_lookup t u r : In (t, u, r) (SyncSample.entries (local_data w a)) -> lookup w a t u = Some r.
  Proof.
    destruct LO as (ad & d & E1 & E2 & N1 & N2). unfold local_data, lookup. rewrite E1, E2. intros I. apply in_flat_map in I as ([m b] & I1 & I2).
    apply in_map_iff in I2 as ([u' r'] & X & I2). simpl in *. injection X as -> -> ->. unfold bucket. rewrite (In_dget _ _ _ N1 I1). apply In_dget; [exact (N2 _ _ I1)|exact I2].
  Qed.
  Lemma stored_iff k o : In (k, o) (stored_objs w a) <-> exists r, lookup w a (fst k) (snd k) = Some r /\ nth_error (w_heap w) r = Some o.
  Proof.
    unfold stored_objs. rewrite in_flat_map. split.
    - intros ([[t u] r] & I & J). simpl in J. destruct (nth_error (w_heap w) r) as [o'|] eqn:H; [|destruct J]. destruct J as [J|[]]. injection J as <- <-.
      exists r. split; [now apply entry_lookup|exact H].
    - intros (r & L & H). exists (k, r). split; [apply lookup_entry in L; now destruct k|]. simpl. rewrite H. now left.
  Qed.
  Lemma read_iff k o : read w a o /\ is_key o k <-> In (k, o) (stored_objs w a).
  Proof.
    rewrite stored_iff. split.
    - intros (R & T & U). destruct (read_local w a o LO R) as (t & u & r & L & H). exists r. split; [|exact H].
      destruct (KY t u r L) as (o' & H' & T' & U' & _). assert (o' = o) by congruence. subst o'. rewrite <- L. f_equal; congruence.
    - intros (r & L & H). destruct (KY _ _ _ L) as (o' & H' & T & U & _). assert (o' = o) by congruence. subst o'. split; [|now split].
      exists (fst k), [o]. split; [now left|]. right. exists [snd k]. apply local_by; [destruct LO as (ad & d & A & B & _); eauto|]. constructor; [eauto|constructor].
  Qed.
  Lemma read_stored o : read w a o -> exists k, In (k, o) (stored_objs w a).
  Proof.
    intros R. destruct (read_local w a o LO R) as (t & u & r & L & H). exists (t, u). apply stored_iff. eauto.
  Qed.
  Lemma listed_iff p k : listed w a p k <-> In (p, k) (links w a).
  Proof.
    unfold links. rewrite in_flat_map. split.
    - intros (o & R & K & f & l & I & G & IL). exists (p, o). split; [now apply read_iff|]. cbn [fst snd]. apply in_flat_map. exists (fst k, f). split; [exact I|].
      cbn [fst snd]. rewrite G. apply in_map_iff. exists (snd k). split; [now destruct k|exact IL].
    - intros ([p' o] & I & J). cbn [fst snd] in J. apply in_flat_map in J as ([t f] & If & J). cbn [fst snd] in J. destruct (dget (o_kids o) f) as [l|] eqn:G; [|destruct J].
      apply in_map_iff in J as (u & X & J). injection X as -> <-. apply read_iff in I as (R & K). exists o. split; [exact R|]. split; [exact K|]. exists f, l. auto.
  Qed.
  (** a keyed LocalStore is a forest as soon as the parents are unique *)
  Lemma local_forest tops : (forall p p' k, listed w a p k -> listed w a p' k -> p = p') -> (forall p k, listed w a p k -> ~ In (fst k) tops) -> forest w a tops.
  Proof.
    intros HP HT. assert (LS : exists ad d, nth_error (w_ads w) a = Some ad /\ ad_store ad = SLocal d) by (destruct LO as (ad & d & A & B & _); eauto).
    split; [split| | |exact HP|exact HT].
    - intros t l o _ H I. destruct LO as (ad & d & A & B & _). apply (local_all w a t l ad d A B) in H. destruct (Forall2_in_r _ _ _ _ H I) as (r & J & Hr).
      unfold dvals in J. apply in_map_iff in J as ([u r'] & X & J). simpl in X. subst r'.
      assert (L : lookup w a t u = Some r).
      { unfold lookup. rewrite A, B. apply In_dget; [eapply bucket_NoDup; eauto|exact J]. }
      destruct (KY t u r L) as (o' & H' & T & _). assert (o' = o) by congruence. now subst.
    - intros us t l o _ H I. apply (local_by w a us t l LS) in H. destruct (Forall2_in_r _ _ _ _ H I) as (u & _ & r & L & Hr).
      destruct (KY t u r L) as (o' & H' & T & _). assert (o' = o) by congruence. now subst.
    - intros us t l _ H. apply (local_by w a us t l LS) in H. induction H as [|u o us l (r & L & Hr) F IH]; [reflexivity|]. simpl. rewrite IH.
      destruct (KY t u r L) as (o' & H' & _ & U & _). assert (o' = o) by congruence. subst o'. now rewrite U.
    - intros o o' k R R' K K'. assert (I : In (k, o) (stored_objs w a)) by now apply read_iff. assert (I' : In (k, o') (stored_objs w a)) by now apply read_iff.
      apply stored_iff in I as (r & L & H). apply stored_iff in I' as (r' & L' & H'). congruence.
  Qed.
End Local.

Definition one_parentb (l m : list (key * key)) : bool :=
  forallb (fun x => forallb (fun y => negb (keyb (snd x) (snd y)) || keyb (fst x) (fst y)) m) l.
Lemma one_parentb_ok l m : one_parentb l m = true -> forall p p' k, In (p, k) l -> In (p', k) m -> p = p'.
Proof.
  unfold one_parentb. rewrite forallb_forall. intros H p p' k I J. specialize (H _ I). rewrite forallb_forall in H. specialize (H _ J). simpl in H.
  rewrite (proj2 (keyb_ok k k) eq_refl) in H. simpl in H. now apply keyb_ok.
Qed.
Definition no_topb (l : list (key * key)) (tops : list string) : bool := forallb (fun x => negb (smem (fst (snd x)) tops)) l.
Lemma no_topb_ok l tops : no_topb l tops = true -> forall p k, In (p, k) l -> ~ In (fst k) tops.
Proof. unfold no_topb. rewrite forallb_forall. intros H p k I J. specialize (H _ I). simpl in H. apply smem_In in J. rewrite J in H. discriminate. Qed.
Definition in_storeb (w : world) (a : aid) (k : key) : bool := match lookup w a (fst k) (snd k) with Some _ => true | None => false end.
Definition completeb' (w : world) (a : aid) (tops : list string) : bool :=
  forallb (fun x => in_storeb w a (snd x)) (links w a) &&
  forallb (fun ko => smem (fst (fst ko)) tops || existsb (fun x => keyb (snd x) (fst ko)) (links w a)) (stored_objs w a) &&
  forallb (fun ko => forallb (fun fl => nodupb (snd fl)) (o_kids (snd ko))) (stored_objs w a).
Lemma completeb_ok w a tops : local_ok w a -> keyed w a -> completeb' w a tops = true -> complete w a tops.
Proof.
  intros LO KY H. unfold completeb' in H. rewrite !andb_true_iff, !forallb_forall in H. destruct H as [[H1 H2] H3]. split.
  - intros p k L. apply (listed_iff w a LO KY) in L. specialize (H1 _ L). cbn [snd] in H1. unfold in_storeb in H1. destruct (lookup w a (fst k) (snd k)); discriminate.
  - intros k L. destruct (lookup w a (fst k) (snd k)) as [r|] eqn:E; [|congruence]. destruct (KY _ _ _ E) as (o & Ho & _).
    assert (I : In (k, o) (stored_objs w a)) by (apply (stored_iff w a LO); eauto). specialize (H2 _ I). cbn [fst] in H2. apply orb_true_iff in H2 as [H2|H2].
    + left. now apply smem_In.
    + right. apply existsb_exists in H2 as ([p k'] & J & X). cbn [snd] in X. apply keyb_ok in X. subst k'. exists p. now apply (listed_iff w a LO KY).
  - intros o t f l R _ G. destruct (read_stored w a LO o R) as (k & I). specialize (H3 _ I). cbn [snd] in H3. rewrite forallb_forall in H3.
    apply nodupb_ok. exact (H3 _ (dget_Some_In _ _ _ G)).
Qed.

Definition same_shapeb (c c' : cls) : bool :=
  (if list_eq_dec string_dec (c_identifiers c) (c_identifiers c') then true else false) &&
  (if list_eq_dec string_dec (c_shortname c) (c_shortname c') then true else false) &&
  (if list_eq_dec string_dec (c_attributes c) (c_attributes c') then true else false) &&
  (if list_eq_dec string_dec (dkeys (c_children c)) (dkeys (c_children c')) then true else false) &&
  (if list_eq_dec string_dec (dvals (c_children c)) (dvals (c_children c')) then true else false).
Lemma dict_ext (d d' : dict string) : dkeys d = dkeys d' -> dvals d = dvals d' -> d = d'.
Proof.
  revert d'. induction d as [|[k v] d IH]; intros [|[k' v'] d'] E1 E2; try discriminate; [reflexivity|]. unfold dkeys, dvals in *. simpl in *. injection E1 as -> E1. injection E2 as -> E2.
  f_equal. now apply IH.
Qed.
Lemma same_shapeb_ok c c' : same_shapeb c c' = true -> same_shape c c'.
Proof.
  unfold same_shapeb. repeat destruct list_eq_dec; simpl; try discriminate. intros _. repeat (split; [assumption|]). now apply dict_ext.
Qed.
Definition inclb (l m : list string) : bool := forallb (fun x => smem x m) l.
Lemma inclb_ok l m : inclb l m = true -> incl l m.
Proof. unfold inclb. rewrite forallb_forall. intros H x I. apply smem_In. auto. Qed.
Definition creatableb (c : cls) : bool :=
  nodupb (dkeys (c_fields c)) && inclb (c_identifiers c) (dkeys (c_fields c)) && inclb (c_attributes c) (dkeys (c_fields c)) &&
  forallb (fun k => negb (smem k (c_attributes c))) (c_identifiers c) && inclb (c_shortname c) (c_identifiers c) &&
  forallb (fun kv => match snd kv with None => smem (fst kv) (c_identifiers c) || smem (fst kv) (c_attributes c) | Some _ => true end) (c_fields c) &&
  nodupb (dvals (c_children c)) && inclb (dvals (c_children c)) (c_kid_fields c) && nodupb (dkeys (c_children c)).
Lemma creatableb_ok c : creatableb c = true -> creatable c.
Proof.
  unfold creatableb. rewrite !andb_true_iff. intros [[[[[[[[H1 H2] H3] H4] H5] H6] H7] H8] H9]. rewrite forallb_forall in H4, H6. split; auto using nodupb_ok, inclb_ok.
  - intros k I J. specialize (H4 k I). apply smem_In in J. rewrite J in H4. discriminate.
  - intros k I. specialize (H6 _ I). simpl in H6. apply orb_true_iff in H6 as [H6|H6]; apply smem_In in H6; auto.
  - now apply nodupb_ok.
  - now apply inclb_ok.
Qed.
Definition corrb (w : world) (a : aid) (da : adapter) : bool :=
  forallb (fun ko => match dget (ad_classes da) (get_type (snd ko)) with
                     | Some c => String.eqb (c_modelname c) (get_type (snd ko)) && same_shapeb c (o_cls (snd ko)) && creatableb c
                     | None => false
                     end) (stored_objs w a).
Lemma corrb_ok w a da o : local_ok w a -> corrb w a da = true -> read w a o ->
  exists c, dget (ad_classes da) (get_type o) = Some c /\ c_modelname c = get_type o /\ same_shape c (o_cls o) /\ creatable c.
Proof.
  intros LO H R. destruct (read_stored w a LO o R) as (k & I). unfold corrb in H. rewrite forallb_forall in H. specialize (H _ I). cbn [snd] in H.
  destruct (dget (ad_classes da) (get_type o)) as [c|]; [|discriminate]. rewrite !andb_true_iff in H. destruct H as [[H1 H2] H3]. exists c. split; [reflexivity|].
  split; [now apply String.eqb_eq|]. split; [now apply same_shapeb_ok|now apply creatableb_ok].
Qed.
Definition plainb (w : world) (a : aid) : bool :=
  forallb (fun ko => nodupb (dkeys (o_vals (snd ko))) && forallb (fun k => match dget (o_vals (snd ko)) k with Some v => py_eq v v | None => false end)
     (c_identifiers (o_cls (snd ko)) ++ c_attributes (o_cls (snd ko)))) (stored_objs w a).
Lemma plainb_ok w a : local_ok w a -> plainb w a = true -> plain_values w a.
Proof.
  intros LO H o R. destruct (read_stored w a LO o R) as (k & I). unfold plainb in H. rewrite forallb_forall in H. specialize (H _ I). cbn [snd] in H.
  apply andb_true_iff in H as [H1 H2]. split; [now apply nodupb_ok|]. intros f J. rewrite forallb_forall in H2. specialize (H2 f J).
  destruct (dget (o_vals o) f) as [v|]; [eauto|discriminate].
Qed.
(** parents have a higher rank, below [n] *)
Definition rankb (l : list (key * key)) (rk : string -> nat) (n : nat) : bool :=
  forallb (fun x => Nat.ltb (rk (fst (snd x))) (rk (fst (fst x))) && Nat.ltb (rk (fst (fst x))) n) l.
Lemma rank_deep w a rk n : local_ok w a -> keyed w a -> n <> 0 -> rankb (links w a) rk n = true -> forall k, ~ deep w a n k.
Proof.
  intros LO KY NZ H. unfold rankb in H. rewrite forallb_forall in H.
  assert (L : forall p k, StoreSpec.child_of w a p k -> rk (fst k) < rk (fst p) /\ rk (fst p) < n).
  { intros p k (r & o & f & l & A & B & C & D & E & _). assert (J : In (p, k) (links w a)).
    { apply (listed_iff w a LO KY). assert (X : In (p, o) (stored_objs w a)) by (apply (stored_iff w a LO); eauto). apply (read_iff w a LO KY) in X as (R & K).
      exists o. split; [exact R|]. split; [exact K|]. exists f, l. auto. }
    specialize (H _ J). simpl in H. apply andb_true_iff in H as [H1 H2]. apply Nat.ltb_lt in H1, H2. auto. }
  assert (G : forall m k, deep w a m k -> m <= rk (fst k)).
  { induction m as [|m IH]; intros k D; [lia|]. destruct D as (k' & C & D). specialize (IH _ D). destruct (L _ _ C). lia. }
  intros k D. pose proof (G _ _ D). destruct n as [|n]; [congruence|]. destruct D as (k' & C & _). destruct (L _ _ C). lia.
Qed.
Lemma rank_line w a rk n : local_ok w a -> keyed w a -> n <> 0 -> rankb (links w a) rk n = true -> forall k, ~ line w a n k.
Proof.
  intros LO KY NZ H. unfold rankb in H. rewrite forallb_forall in H.
  assert (L : forall p k, listed w a p k -> rk (fst k) < rk (fst p) /\ rk (fst p) < n).
  { intros p k J. apply (listed_iff w a LO KY) in J. specialize (H _ J). simpl in H. apply andb_true_iff in H as [H1 H2]. apply Nat.ltb_lt in H1, H2. auto. }
  assert (G : forall m k, line w a m k -> m <> 0 -> exists p k', listed w a p k' /\ m + rk (fst k) <= rk (fst p)).
  { induction m as [|m IH]; intros k D N; [congruence|]. destruct D as (p & C & D). destruct (L _ _ C). destruct m as [|m]; [exists p, k; split; [exact C|lia]|].
    destruct (IH p D) as (p0 & k0 & C0 & LE); [lia|]. exists p0, k0. split; [exact C0|lia]. }
  intros k D. destruct (G _ _ D NZ) as (p & k' & C & LE). destruct (L _ _ C). lia.
Qed.

Definition alikeb (w : world) (fuel : nat) (src dst : aid) (sa da : adapter) (rk : string -> nat) : bool :=
  negb (Nat.eqb src dst) && w_okb w && shareb w src dst && localb w src && keyedb w src && localb w dst && keyedb w dst && nodupb (ad_top da) &&
  one_parentb (links w src) (links w src) && one_parentb (links w dst) (links w dst) && one_parentb (links w src) (links w dst) &&
  no_topb (links w src) (ad_top sa) && no_topb (links w dst) (ad_top da) && no_topb (links w src) (ad_top da) &&
  completeb' w dst (ad_top da) && corrb w src da && corrb w dst da && plainb w src && rankb (links w dst) rk fuel && negb (Nat.eqb fuel 0).
Lemma alikeb_ok w fuel src dst sa da rk : nth_error (w_ads w) src = Some sa -> nth_error (w_ads w) dst = Some da ->
  alikeb w fuel src dst sa da rk = true -> alike w fuel src dst sa da.
Proof.
  intros ES ED H. unfold alikeb in H. rewrite !andb_true_iff in H.
  destruct H as [[[[[[[[[[[[[[[[[[[H1 H2] H3] H4] H5] H6] H7] H8] H9] H10] H11] H12] H13] H14] H15] H16] H17] H18] H19] H20].
  pose proof (localb_ok _ _ H4) as LS. pose proof (localb_ok _ _ H6) as LD. pose proof (keyedb_ok _ _ H5) as KS. pose proof (keyedb_ok _ _ H7) as KD.
  pose proof (one_parentb_ok _ _ H9) as P1. pose proof (one_parentb_ok _ _ H10) as P2. pose proof (one_parentb_ok _ _ H11) as P3.
  pose proof (no_topb_ok _ _ H12) as T1. pose proof (no_topb_ok _ _ H13) as T2. pose proof (no_topb_ok _ _ H14) as T3.
  assert (LIS : forall p k, listed w src p k -> In (p, k) (links w src)) by (intros; now apply (listed_iff w src LS KS)).
  assert (LID : forall p k, listed w dst p k -> In (p, k) (links w dst)) by (intros; now apply (listed_iff w dst LD KD)).
  split; auto.
  - intros E. rewrite E, Nat.eqb_refl in H1. discriminate.
  - now apply w_okb_ok.
  - now apply shareb_ok.
  - now apply nodupb_ok.
  - apply local_forest; eauto.
  - apply local_forest; eauto.
  - now apply completeb_ok.
  - split; eauto.
  - intros o [R|R]; [eapply (corrb_ok w src); eauto|eapply (corrb_ok w dst); eauto].
  - now apply plainb_ok.
  - apply (rank_deep w dst rk fuel); auto. intros ->. discriminate.
Qed.

Definition namedb (w : world) (a : aid) : bool :=
  forallb (fun ko => match get_unique_id (snd ko), get_shortname (snd ko) with Ok _, Ok _ => true | _, _ => false end) (stored_objs w a).
Definition opt_eqb (x y : result string) : bool := match x, y with Ok a, Ok b => String.eqb a b | _, _ => false end.
Definition sameb (w : world) (src dst : aid) : bool :=
  forallb (fun s => forallb (fun d => negb (keyb (fst s) (fst d)) || (opt_eqb (get_shortname (snd s)) (get_shortname (snd d)) &&
    dict_eq (get_identifiers (snd s)) (get_identifiers (snd d)))) (stored_objs w dst)) (stored_objs w src).
Definition sibb (tops tops' : list string) (objs : list (key * obj)) (l : list (key * key)) : bool :=
  forallb (fun s => forallb (fun d => keyb (fst s) (fst d) || negb (String.eqb (fst (fst s)) (fst (fst d))) || negb (opt_eqb (get_shortname (snd s)) (get_shortname (snd d))) ||
    negb ((smem (fst (fst s)) tops && smem (fst (fst s)) tops') || existsb (fun x => existsb (fun y => keyb (snd x) (fst s) && keyb (snd y) (fst d) && keyb (fst x) (fst y)) l) l)) objs) objs.
Definition closedb (w : world) (a : aid) : bool := forallb (fun x => in_storeb w a (snd x)) (links w a).
Definition comparableb (w : world) (fuel : nat) (src dst : aid) (sa da : adapter) (rk : string -> nat) : bool :=
  localb w src && keyedb w src && localb w dst && keyedb w dst && w_okb w && namedb w src && namedb w dst && sameb w src dst &&
  sibb (ad_top sa) (ad_top da) (stored_objs w src ++ stored_objs w dst) (links w src ++ links w dst) && closedb w src &&
  rankb (links w src) rk (fuel - 1) && rankb (links w dst) rk (fuel - 1) && Nat.ltb 1 fuel.
Lemma comparableb_ok w fuel src dst sa da rk : nth_error (w_ads w) src = Some sa ->
  comparableb w fuel src dst sa da rk = true -> comparable w fuel src dst sa da.
Proof.
  intros ES H. unfold comparableb in H. rewrite !andb_true_iff in H. destruct H as [[[[[[[[[[[[H1 H2] H3] H4] H5] H6] H7] H8] H9] H10] H11] H12] H13].
  pose proof (localb_ok _ _ H1) as LS. pose proof (localb_ok _ _ H3) as LD. pose proof (keyedb_ok _ _ H2) as KS. pose proof (keyedb_ok _ _ H4) as KD.
  unfold namedb, sameb, sibb, closedb in *. rewrite forallb_forall in H6, H7, H8, H9, H10. apply Nat.ltb_lt in H13.
  assert (NM : forall o, read w src o \/ read w dst o -> match get_unique_id o, get_shortname o with Ok _, Ok _ => true | _, _ => false end = true).
  { intros o [R|R]; [destruct (read_stored w src LS o R) as (k & I); exact (H6 _ I)|destruct (read_stored w dst LD o R) as (k & I); exact (H7 _ I)]. }
  assert (OE : forall x y, opt_eqb x y = true -> x = y).
  { intros [x|] [y|]; simpl; try discriminate. intros E. apply String.eqb_eq in E. now subst. }
  split.
  - intros o R. specialize (NM o R). destruct (get_unique_id o); [|discriminate]. destruct (get_shortname o); [eauto|discriminate].
  - intros s d k R1 R2 K1 K2. assert (I1 : In (k, s) (stored_objs w src)) by now apply (read_iff w src LS KS).
    assert (I2 : In (k, d) (stored_objs w dst)) by now apply (read_iff w dst LD KD). specialize (H8 _ I1). rewrite forallb_forall in H8. specialize (H8 _ I2). cbn [fst snd] in H8.
    rewrite (proj2 (keyb_ok k k) eq_refl) in H8. simpl in H8. apply andb_true_iff in H8 as [A B]. auto.
  - intros o o' k k' R R' K K' T N P.
    assert (I1 : In (k, o) (stored_objs w src ++ stored_objs w dst)) by (apply in_app_iff; destruct R; [left; now apply (read_iff w src LS KS)|right; now apply (read_iff w dst LD KD)]).
    assert (I2 : In (k', o') (stored_objs w src ++ stored_objs w dst)) by (apply in_app_iff; destruct R'; [left; now apply (read_iff w src LS KS)|right; now apply (read_iff w dst LD KD)]).
    specialize (H9 _ I1). rewrite forallb_forall in H9. specialize (H9 _ I2). cbn [fst snd] in H9. rewrite T, String.eqb_refl in H9. cbn [negb] in H9. rewrite orb_false_r in H9.
    pose proof (NM o R) as NO. destruct (get_unique_id o); [|discriminate]. destruct (get_shortname o) as [n|]; [|discriminate]. rewrite <- N in H9. simpl opt_eqb in H9. rewrite String.eqb_refl in H9.
    cbn [negb] in H9. rewrite orb_false_r in H9. apply orb_true_iff in H9 as [H9|H9]; [now apply keyb_ok|]. exfalso. apply negb_true_iff, orb_false_iff in H9 as [A B].
    destruct P as [(P1 & P2)|(p & P1 & P2)].
    + rewrite <- T in A. apply smem_In in P1, P2. rewrite P1, P2 in A. discriminate.
    + assert (J1 : In (p, k) (links w src ++ links w dst)) by (apply in_app_iff; destruct P1; [left; now apply (listed_iff w src LS KS)|right; now apply (listed_iff w dst LD KD)]).
      assert (J2 : In (p, k') (links w src ++ links w dst)) by (apply in_app_iff; destruct P2; [left; now apply (listed_iff w src LS KS)|right; now apply (listed_iff w dst LD KD)]).
      assert (X : existsb (fun x => existsb (fun y => keyb (snd x) k && keyb (snd y) k' && keyb (fst x) (fst y)) (links w src ++ links w dst)) (links w src ++ links w dst) = true); [|congruence].
      apply existsb_exists. exists (p, k). split; [exact J1|]. apply existsb_exists. exists (p, k'). split; [exact J2|]. cbn [fst snd]. now rewrite !(proj2 (keyb_ok _ _) eq_refl).
  - intros o t f R I. assert (X : exists a, (a = src \/ a = dst) /\ read w a o) by (destruct R; eauto). destruct X as (a & A & R').
    assert (LA : local_ok w a) by (destruct A as [->| ->]; assumption). assert (KA : keyed w a) by (destruct A as [->| ->]; assumption).
    destruct (read_local w a o LA R') as (t0 & u & r & L & Hr). destruct (KA _ _ _ L) as (o' & H' & _ & _ & X). assert (o' = o) by congruence. subst o'. eauto.
  - intros t _. destruct LS as (ad & d & A & B & _). eapply all_reads; eauto using w_okb_ok.
  - intros o t f us R If G.
    destruct (pick_F2 (fun u o => exists r, lookup w src t u = Some r /\ nth_error (w_heap w) r = Some o) us) as (l & F).
    + intros u I. destruct (read_stored w src LS o R) as (p & P). apply (read_iff w src LS KS) in P as (_ & K).
      assert (L : listed w src p (t, u)) by (exists o; split; [exact R|]; split; [exact K|]; exists f, us; auto).
      apply (listed_iff w src LS KS) in L. specialize (H10 _ L). unfold in_storeb in H10. cbn [fst snd] in H10. destruct (lookup w src t u) as [r|] eqn:E; [|discriminate].
      destruct (KS _ _ _ E) as (o' & H' & _). eauto.
    + exists l. apply local_by; [|exact F]. destruct LS as (ad & d & A & B & _). eauto.
  - intros a k [->| ->]; [apply (rank_line w src rk); auto; lia|apply (rank_line w dst rk); auto; lia].
Qed.

Definition rank (t : string) : nat := if String.eqb t "site" then 2 else if String.eqb t "device" then 1 else 0.
Definition sa0 : adapter := mk_ad "src" (SLocal src_data).
Definition da0 : adapter := mk_ad "dst" (SLocal dst_data).
Lemma w0_alike : alike w0 20 0 1 sa0 da0.
Proof. apply (alikeb_ok _ _ _ _ _ _ rank); vm_compute; reflexivity. Qed.
Lemma w0_comparable : comparable w0 20 0 1 sa0 da0.
Proof. apply (comparableb_ok _ _ _ _ _ _ rank); vm_compute; reflexivity. Qed.

Lemma delete_named w dst gs k : existsb (fun e => is_delete (e_action e) && key_is (name_of w dst e) k) (tree_all gs) = true ->
  exists e, occurs e gs /\ e_action e = Some ADelete /\ names w dst e k.
Proof.
  intros X. apply existsb_exists in X as (e & I & X). apply andb_true_iff in X as [X1 X3]. exists e. split; [now apply In_tree_all|]. split.
  - destruct (e_action e) as [[| |]|]; try discriminate. reflexivity.
  - unfold name_of in X3. destruct (nth_error (w_ads w) dst) as [ad|] eqn:A; [|discriminate]. destruct (dget (ad_classes ad) (e_type e)) as [c|] eqn:C; [|discriminate].
    destruct (create_unique_id c (e_keys e)) as [u|] eqn:U; [|discriminate]. simpl in X3. apply andb_true_iff in X3 as [Y1 Y2]. apply String.eqb_eq in Y1, Y2.
    exists ad, c. split; [exact A|]. split; [exact C|]. split; [auto|congruence].
Qed.

(** hooks that put a note into the object *)
Definition note_hooks : hooks := fun _ _ => mkOut true None [("note", VStr "touched")] HReturn.
Lemma note_succeed : hooks_succeed note_hooks.
Proof. intros w hc. split; reflexivity. Qed.
Lemma note_writes : hooks_write (fun k => k = "note") note_hooks.
Proof. intros w hc k [<-|[]]. reflexivity. Qed.
Lemma note_spares : spares_attributes da0 note_hooks.
Proof.
  intros w hc k t c [<-|[]] C. change (ad_classes da0) with s_classes in C. unfold s_classes in C. cbn [dget] in C.
  repeat match type of C with (if ?b then _ else _) = _ => destruct b; [injection C as <-; cbn; intuition discriminate|] end. discriminate.
Qed.
Lemma default_spares da : spares_attributes da default_hooks.
Proof. intros w hc k t c []. Qed.
