(** * PropGossip: adapters that only grow (C97).

    [change], [do_changes], [realm] and [can_do_all] are defined in EditSpec.v; [grows], [knows], [agreeing], [sums] and
    [know_alike] in GossipSpec.v; [has_data] in RowSpec.v, [holds_copy] in CopySpec.v. *)
From Verif Require Import RowSample PropAgree PropRow PropFleet PropPool PropEdit GossipFacts.

(** C97.  Several adapters start empty.  Objects are added to them, and they are synchronised from each other with
    SKIP_UNMATCHED_DST, in any order and any number of times; records of the same object agree.  No step fails, and at
    the end each adapter has exactly the data of the records that were added to it, or to an adapter whose records
    have come to it through any number of others. *)
Theorem C97_run : forall fuel cs tops U w l,
  w_ok w -> (forall ad, In ad (w_ads w) -> ad_store ad = SLocal [] /\ ad_classes ad = cs /\ ad_top ad = tops) ->
  realm fuel cs tops U -> 2 <= fuel -> agreeing cs U -> can_do_all cs U (w_ads w) (fun _ => []) l -> Forall grows l ->
  exists w', do_changes fuel l w = (w', Ok tt) /\
    forall a, a < length (w_ads w) -> (exists rows, sums cs l a rows) /\ forall rows, sums cs l a rows -> has_data w' a cs rows.
Proof.
  intros fuel cs tops U w l OK ES RL F2 AG CD GR. destruct (grown fuel cs tops U RL F2 w l OK ES CD GR) as (w' & E & H). exists w'. split; [exact E|].
  intros a LA. destruct (H a LA) as (CA & DS & IU & SU). split; [eauto|]. intros R SR. assert (IR : incl R U) by (intros x I; exact (can_knows cs U _ l _ CD a x (su_known _ _ _ _ SR x I))).
  apply carries_has; [apply SR|intros x c f I; apply (rl_proper _ _ _ _ RL); now apply IR|].
  apply (carries_alike cs U (rl_match _ _ _ _ RL) AG (rows_after cs l a) R IU IR); [| |exact CA].
  - intros x I. apply (su_all _ _ _ _ SR). now apply (su_known _ _ _ _ SU).
  - intros x I. apply (su_all _ _ _ _ SU). now apply (su_known _ _ _ _ SR).
Qed.
Print Assumptions C97_run.

(** Adapters that know the same hold the same, in whatever order and through whichever adapters they learned it: two
    adapters of one history, or of different histories that started from different worlds. *)
Theorem C97_alike : forall fuel cs tops U w l w' l' a a',
  w_ok w -> (forall ad, In ad (w_ads w) -> ad_store ad = SLocal [] /\ ad_classes ad = cs /\ ad_top ad = tops) ->
  w_ok w' -> (forall ad, In ad (w_ads w') -> ad_store ad = SLocal [] /\ ad_classes ad = cs /\ ad_top ad = tops) ->
  realm fuel cs tops U -> 2 <= fuel -> agreeing cs U ->
  can_do_all cs U (w_ads w) (fun _ => []) l -> Forall grows l -> can_do_all cs U (w_ads w') (fun _ => []) l' -> Forall grows l' ->
  a < length (w_ads w) -> a' < length (w_ads w') -> know_alike cs l a l' a' ->
  exists w1 w2, do_changes fuel l w = (w1, Ok tt) /\ do_changes fuel l' w' = (w2, Ok tt) /\ holds_copy w1 a w2 a' /\ holds_copy w2 a' w1 a.
Proof.
  intros fuel cs tops U w l w' l' a a' OK ES OK' ES' RL F2 AG CD GR CD' GR' LA LA' (K1 & K2).
  destruct (grown fuel cs tops U RL F2 w l OK ES CD GR) as (w1 & E & H). destruct (grown fuel cs tops U RL F2 w' l' OK' ES' CD' GR') as (w2 & E' & H').
  exists w1, w2. split; [exact E|]. split; [exact E'|]. destruct (H a LA) as (CA & DS & IU & SU). destruct (H' a' LA') as (CA' & DS' & IU' & SU').
  assert (Q1 : forall x, In x (rows_after cs l a) -> exists y, In y (rows_after cs l' a') /\ row_key cs y = row_key cs x).
  { intros x I. destruct (K1 x (su_known _ _ _ _ SU x I)) as (y & Ky & Ey). destruct (su_all _ _ _ _ SU' y Ky) as (z & Iz & Ez). exists z. split; [exact Iz|congruence]. }
  assert (Q2 : forall x, In x (rows_after cs l' a') -> exists y, In y (rows_after cs l a) /\ row_key cs y = row_key cs x).
  { intros x I. destruct (K2 x (su_known _ _ _ _ SU' x I)) as (y & Ky & Ey). destruct (su_all _ _ _ _ SU y Ky) as (z & Iz & Ez). exists z. split; [exact Iz|congruence]. }
  pose proof (carries_alike cs U (rl_match _ _ _ _ RL) AG _ _ IU IU' Q1 Q2 w1 a CA) as CB. assert (PV : proper_values cs (rows_after cs l' a')) by (intros x c f I; apply (rl_proper _ _ _ _ RL); now apply IU').
  split; [exact (carries_twin w1 a w2 a' cs tops _ DS' PV CB CA')|exact (carries_twin w2 a' w1 a cs tops _ DS' PV CA' CB)].
Qed.
Print Assumptions C97_alike.

(** So when every record has come to every adapter all of them hold the same, and further synchronisations among them
    change nothing about that. *)
Theorem C97_settled : forall fuel cs tops U w l m a b,
  w_ok w -> (forall ad, In ad (w_ads w) -> ad_store ad = SLocal [] /\ ad_classes ad = cs /\ ad_top ad = tops) ->
  realm fuel cs tops U -> 2 <= fuel -> agreeing cs U -> can_do_all cs U (w_ads w) (fun _ => []) (l ++ m) -> Forall grows (l ++ m) ->
  (forall a b x, In (Insert a x) l -> b < length (w_ads w) -> exists y, knows l b y /\ row_key cs y = row_key cs x) ->
  (forall a x, ~ In (Insert a x) m) -> a < length (w_ads w) -> b < length (w_ads w) ->
  exists w1 w2, do_changes fuel l w = (w1, Ok tt) /\ do_changes fuel (l ++ m) w = (w2, Ok tt) /\
    holds_copy w1 a w1 b /\ holds_copy w2 a w2 b /\ holds_copy w1 a w2 a.
Proof.
  intros fuel cs tops U w l m a b OK ES RL F2 AG CD GR KA NM LA LB. pose proof CD as CD0. apply can_do_app in CD0 as (CD1 & _). pose proof GR as GR0. apply Forall_app in GR0 as (GR1 & _).
  assert (INS : forall q c x, knows q c x -> exists d, In (Insert d x) q).
  { intros q c x K. induction K as [q n c x|q n c x K (d & I)]; [exists c; apply in_app_iff; right; now left|]. exists d. apply in_app_iff. now left. }
  assert (K1 : forall c d x, c < length (w_ads w) -> d < length (w_ads w) -> knows l c x -> exists y, knows l d y /\ row_key cs y = row_key cs x) by (intros c d x LC LD K; destruct (INS l c x K) as (e & I); exact (KA e d x I LD)).
  assert (K2 : forall c d x, c < length (w_ads w) -> d < length (w_ads w) -> knows (l ++ m) c x -> exists y, knows l d y /\ row_key cs y = row_key cs x).
  { intros c d x LC LD K. destruct (INS _ c x K) as (e & I). apply in_app_iff in I as [I|I]; [exact (KA e d x I LD)|elim (NM e x I)]. }
  assert (UP : forall c x, (exists y, knows l c y /\ row_key cs y = row_key cs x) -> exists y, knows (l ++ m) c y /\ row_key cs y = row_key cs x) by (intros c x (y & K & E); exists y; split; [now apply knows_app|exact E]).
  assert (UP' : forall c d x, c < length (w_ads w) -> d < length (w_ads w) -> knows (l ++ m) c x -> exists y, knows (l ++ m) d y /\ row_key cs y = row_key cs x) by (intros c d x LC LD K; apply UP; exact (K2 c d x LC LD K)).
  destruct (C97_alike fuel cs tops U w l w l a b OK ES OK ES RL F2 AG CD1 GR1 CD1 GR1 LA LB) as (w1 & w1' & E1 & E1' & H1 & _); [split; intros x; apply K1; assumption|].
  destruct (C97_alike fuel cs tops U w (l ++ m) w (l ++ m) a b OK ES OK ES RL F2 AG CD GR CD GR LA LB) as (w2 & w2' & E2 & E2' & H2 & _); [split; intros x; apply UP'; assumption|].
  destruct (C97_alike fuel cs tops U w l w (l ++ m) a a OK ES OK ES RL F2 AG CD1 GR1 CD GR LA LA) as (w3 & w4 & E3 & E4 & H3 & _).
  { split; [intros x K; exists x; split; [now apply knows_app|reflexivity]|intros y; now apply K2]. }
  assert (w1' = w1) by congruence. assert (w2' = w2) by congruence. assert (w3 = w1) by congruence. assert (w4 = w2) by congruence. subst. exists w1, w2. auto.
Qed.
Print Assumptions C97_settled.

(** checks of the conditions *)
Lemma realm_sub fuel cs tops U U' : incl U' U -> realm fuel cs tops U -> realm fuel cs tops U'.
Proof.
  intros I [A B C D E F G]. split; auto.
  - intros x J. apply B. now apply I.
  - exact (matching_sub cs U U' U' C I I).
  - intros x c f J. apply D. now apply I.
  - exact (shallow_sub cs U U' _ E I).
  - intros x c J. apply F. now apply I.
Qed.
Lemma can_do_sub cs U U' ads l : (forall b y, In (Insert b y) l -> In y U') -> forall D, can_do_all cs U ads D l -> can_do_all cs U' ads D l.
Proof.
  induction l as [|ch l IH]; intros H D CD; [exact I|]. destruct CD as (C1 & C2). split; [|apply IH; [intros b y J; apply (H b); now right|exact C2]].
  destruct ch as [a x|? ? ? ?|? ? ?|c]; try exact C1. destruct C1 as (A & _ & B). split; [exact A|]. split; [apply (H a); now left|exact B].
Qed.
Definition agreeb (cs : dict cls) (U : list row) : bool :=
  forallb (fun x => forallb (fun y => negb (at_key (row_key cs x) (row_key cs y)) ||
    match dget cs (r_type x) with
    | Some c => forallb (fun f => match value_in c (r_kw x) f, value_in c (r_kw y) f with Some v, Some v' => py_eq v v' | _, _ => false end) (c_attributes c)
    | None => true
    end) U) U.
Lemma agreeb_ok cs U : agreeb cs U = true -> agreeing cs U.
Proof.
  intros H x y c f Ix Iy E D If. unfold agreeb in H. rewrite forallb_forall in H. specialize (H x Ix). rewrite forallb_forall in H. specialize (H y Iy). apply orb_true_iff in H as [H|H].
  - apply negb_true_iff in H. assert (X : at_key (row_key cs x) (row_key cs y) = true) by now apply at_key_ok. congruence.
  - rewrite D, forallb_forall in H. specialize (H f If). destruct (value_in c (r_kw x) f) as [v|]; [|discriminate]. destruct (value_in c (r_kw y) f) as [v'|]; [|discriminate]. eauto.
Qed.
Definition drawnb (U : list row) (l : list change) : bool := forallb (fun ch => match ch with Insert _ y => existsb (rowb y) U | _ => true end) l.
Lemma drawnb_ok U l : drawnb U l = true -> forall b y, In (Insert b y) l -> In y U.
Proof. intros H b y I. unfold drawnb in H. rewrite forallb_forall in H. specialize (H _ I). cbn beta iota in H. apply existsb_exists in H as (z & J & Q). apply rowb_ok in Q. now subst z. Qed.
Definition spreadb (cs : dict cls) (n : nat) (l : list change) : bool :=
  forallb (fun ch => match ch with Insert _ x => forallb (fun b => has_row cs (rows_after cs l b) x) (seq 0 n) | _ => true end) l.
Lemma spreadb_ok cs n l : Forall grows l -> spreadb cs n l = true -> forall a b x, In (Insert a x) l -> b < n -> exists y, knows l b y /\ row_key cs y = row_key cs x.
Proof.
  intros GR H a b x I L. unfold spreadb in H. rewrite forallb_forall in H. specialize (H _ I). cbn beta iota in H. rewrite forallb_forall in H. assert (J : In b (seq 0 n)) by (apply in_seq; lia). specialize (H b J).
  apply has_row_ok in H as (y & Iy & E). exists y. split; [exact (proj1 (after_knows cs l GR b) y Iy)|exact E].
Qed.

(** Three adapters get records, some objects in two of them, one after the first synchronisations; the second and the
    third never talk to each other. *)
Definition rows97 : list (list row) :=
  [rows_a; [site "lon" []; device "lon" "r9" "edge"; intf "r9" "eth0" []; site "nyc" [("region", VStr "east")]; device "nyc" "r1" "edge"]; [site "sfo" []; device "sfo" "r5" "leaf"; intf "r5" "eth7" []]]%string.
Definition U97 : list row := concat (firstn 1 rows97) ++ [site "lon" []; device "lon" "r9" "edge"; intf "r9" "eth0" []; device "sfo" "r5" "leaf"; intf "r5" "eth7" []]%string.
Definition fill97 : list change := map (Insert 0) (firstn 4 rows_a) ++ map (Insert 1) (nth 1 rows97 []) ++ map (Insert 2) (nth 2 rows97 []).
Definition l97 : list change := fill97 ++ [Sync (call79 0 2 4); Sync (call79 0 1 4)] ++ map (Insert 0) (skipn 5 rows_a) ++ [Sync (call79 1 0 4); Sync (call79 2 0 4)].
Definition m97 : list change := [Sync (call79 2 1 4); Sync (call79 0 2 12)].
Lemma realm97 : realm 20 s_classes ["site"]%string U97.
Proof. apply (realm_sub _ _ _ U94); [|exact realm94]. intros x I. assert (Q : forallb (fun y => existsb (rowb y) U94) U97 = true) by (vm_compute; reflexivity). rewrite forallb_forall in Q. specialize (Q x I). apply existsb_exists in Q as (z & J & R). apply rowb_ok in R. now subst z. Qed.
Lemma grows97 : Forall grows (l97 ++ m97).
Proof. repeat constructor. Qed.
Lemma can97 : can_do_all s_classes U97 (w_ads w77) (fun _ => []) (l97 ++ m97).
Proof. apply (can_do_sub s_classes U94); [apply drawnb_ok; vm_compute; reflexivity|]. apply can_do_allb_ok; [repeat constructor; cbn; eauto|vm_compute; reflexivity]. Qed.
Definition names97 (l : list change) (a : aid) : list string := map (fun x => snd (row_key s_classes x)) (rows_after s_classes l a).
Example C97_example :
  w_ok w77 /\ (forall ad, In ad (w_ads w77) -> ad_store ad = SLocal [] /\ ad_classes ad = s_classes /\ ad_top ad = ["site"]%string) /\
  realm 20 s_classes ["site"]%string U97 /\ agreeing s_classes U97 /\ can_do_all s_classes U97 (w_ads w77) (fun _ => []) (l97 ++ m97) /\ Forall grows (l97 ++ m97) /\
  (forall a b x, In (Insert a x) l97 -> b < 3 -> exists y, knows l97 b y /\ row_key s_classes y = row_key s_classes x) /\
  names97 l97 0 = ["lon"; "r9"; "r9__eth0"; "nyc"; "r1"; "sfo"; "r5"; "r5__eth7"; "r1__eth0"; "r1__eth1"; "r2"; "r2__eth0"]%string /\
  map (view94 (end94 l97)) (seq 0 3) = repeat [Some [("role", VStr "edge"); ("serial", VNone)]; Some [("mtu", VInt 1500)]; Some [("role", VStr "core"); ("serial", VNone)]; Some [("region", VNone)]]%string 3 /\
  ~ (exists y, knows fill97 2 y /\ row_key s_classes y = ("site", "lon")%string).
Proof.
  split; [apply w_okb_ok; reflexivity|]. split; [exact ads94|]. split; [exact realm97|]. split; [apply agreeb_ok; vm_compute; reflexivity|]. split; [exact can97|]. split; [exact grows97|].
  split; [apply spreadb_ok; [apply (proj1 (proj1 (Forall_app _ _ _) grows97))|vm_compute; reflexivity]|]. split; [vm_compute; reflexivity|]. split; [vm_compute; reflexivity|].
  intros (y & K & E). destruct (after_knows s_classes fill97) with (a := 2) as (_ & H); [repeat constructor|]. destruct (H y K) as (z & I & Ez). rewrite E in Ez. revert z I Ez.
  assert (Q : forallb (fun z => negb (at_key (row_key s_classes z) ("site", "lon")%string)) (rows_after s_classes fill97 2) = true) by (vm_compute; reflexivity). intros z I Ez. rewrite forallb_forall in Q. specialize (Q z I).
  apply negb_true_iff in Q. apply at_key_ok in Ez. congruence.
Qed.

(** If records of one object disagree, adapters need not become the same, though every record has come to each of them. *)
Definition clash97 : list change :=
  map (Insert 0) rows_a ++ map (Insert 1) rows_b ++ map (Insert 2) rows_c ++ [Sync (call79 0 2 4); Sync (call79 2 0 4); Sync (call79 0 1 4); Sync (call79 1 2 4); Sync (call79 2 1 4)].
Theorem C97_disagree_refuted : exists fuel cs tops U w l w' a b k f,
  w_ok w /\ (forall ad, In ad (w_ads w) -> ad_store ad = SLocal [] /\ ad_classes ad = cs /\ ad_top ad = tops) /\
  realm fuel cs tops U /\ 2 <= fuel /\ can_do_all cs U (w_ads w) (fun _ => []) l /\ Forall grows l /\
  (forall a b x, In (Insert a x) l -> b < length (w_ads w) -> exists y, knows l b y /\ row_key cs y = row_key cs x) /\
  a < length (w_ads w) /\ b < length (w_ads w) /\ do_changes fuel l w = (w', Ok tt) /\
  exists r o v r' o' v', lookup w' a (fst k) (snd k) = Some r /\ nth_error (w_heap w') r = Some o /\ dget (o_vals o) f = Some v /\
    lookup w' b (fst k) (snd k) = Some r' /\ nth_error (w_heap w') r' = Some o' /\ dget (o_vals o') f = Some v' /\
    In f (c_attributes (o_cls o)) /\ py_eq v v' = false.
Proof.
  exists 20, s_classes, ["site"]%string, U94, w77, clash97, (end94 clash97), 0, 1, ("device", "r2")%string, "role"%string.
  assert (GR : Forall grows clash97) by repeat constructor.
  split; [apply w_okb_ok; reflexivity|]. split; [exact ads94|]. split; [exact realm94|]. split; [lia|]. split; [apply can_do_allb_ok; [repeat constructor; cbn; eauto|vm_compute; reflexivity]|].
  split; [exact GR|]. split; [apply spreadb_ok; [exact GR|vm_compute; reflexivity]|]. split; [cbn; lia|]. split; [cbn; lia|]. split.
  - unfold end94. assert (E : snd (do_changes 20 clash97 w77) = Ok tt) by (vm_compute; reflexivity). revert E. generalize (do_changes 20 clash97 w77). intros [v r]. cbn [fst snd]. now intros ->.
  - do 6 eexists. split; [vm_compute; reflexivity|]. split; [vm_compute; reflexivity|]. split; [vm_compute; reflexivity|]. split; [vm_compute; reflexivity|]. split; [vm_compute; reflexivity|]. split; [vm_compute; reflexivity|]. split; vm_compute; tauto.
Qed.
Print Assumptions C97_disagree_refuted.
