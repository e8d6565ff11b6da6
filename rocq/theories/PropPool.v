(** * PropPool: sequences of synchronisations with any flags (C79).

    [crowd], [any_call], [pool] and [pooled] are defined in PoolSpec.v, the conditions on records and [has_data] in
    RowSpec.v, [holds_copy] in CopySpec.v.  [pooled] only looks at records and calls. *)
From Verif Require Import RowSample PropAgree PropRow PropFleet PoolEnd.

(** C79.  Several adapters are filled from records, and then synchronise from each other in any order, any
    number of times, with any flags.  Every call succeeds, and at the end each adapter has exactly
    the data of the records that the flags select. *)
Theorem C79_run : forall fuel cs tops w data calls,
  w_ok w -> (forall ad, In ad (w_ads w) -> ad_store ad = SLocal []) -> crowd fuel cs tops (w_ads w) data -> 2 <= fuel ->
  Forall (any_call (w_ads w)) calls ->
  exists w', (load_each 0 data ;;; sync_each fuel calls) w = (w', Ok tt) /\
    forall a, a < length (w_ads w) -> has_data w' a cs (pooled cs calls data a).
Proof.
  intros fuel cs tops w data calls OK ES CW F2 AC. destruct (load_steady fuel cs tops (w_ads w) data CW w OK eq_refl ES) as (w1 & E1 & S1).
  destruct (run_steady fuel cs tops (w_ads w) data CW F2 calls _ w1 S1 AC) as (w2 & E2 & S2). exists w2. split; [unfold bind; now rewrite E1|].
  intros a LA. exact (steady_data fuel cs tops (w_ads w) data CW _ w2 a S2 LA).
Qed.
Print Assumptions C79_run.

(** An adapter that collects from others with SKIP_UNMATCHED_DST has an object for each record of its own and of
    theirs, and nothing else; and when they take over what it has in turn, they all hold the same. *)
Definition collects (hub : aid) (c : sync_call) : Prop :=
  sy_dst c = hub /\ sy_src c <> hub /\ N.testbit (sy_flags c) 1 = false /\ N.testbit (sy_flags c) 2 = true.
Definition gives (hub : aid) (c : sync_call) : Prop :=
  sy_src c = hub /\ sy_dst c <> hub /\ N.testbit (sy_flags c) 1 = false /\ N.testbit (sy_flags c) 2 = false.
Theorem C79_hub : forall fuel cs tops w data hub coll back,
  w_ok w -> (forall ad, In ad (w_ads w) -> ad_store ad = SLocal []) -> crowd fuel cs tops (w_ads w) data -> 2 <= fuel ->
  Forall (any_call (w_ads w)) (coll ++ back) -> hub < length (w_ads w) -> Forall (collects hub) coll -> Forall (gives hub) back ->
  exists w', (load_each 0 data ;;; sync_each fuel (coll ++ back)) w = (w', Ok tt) /\
    (forall k, lookup w' hub (fst k) (snd k) <> None <->
       exists a rows x, (a = hub \/ In a (map sy_src coll)) /\ nth_error data a = Some rows /\ In x rows /\ row_key cs x = k) /\
    forall a, In a (map sy_dst back) -> holds_copy w' hub w' a /\ holds_copy w' a w' hub.
Proof.
  intros fuel cs tops w data hub coll back OK ES CW F2 AC LH CO BA. destruct (load_steady fuel cs tops (w_ads w) data CW w OK eq_refl ES) as (w1 & E1 & S1).
  destruct (run_steady fuel cs tops (w_ads w) data CW F2 (coll ++ back) _ w1 S1 AC) as (w2 & E2 & S2). exists w2. split; [unfold bind; now rewrite E1|].
  destruct (collect_keys cs hub coll (given data) CO) as (CK & _). rewrite fold_left_app in S2. set (D := fold_left (pool_call cs) coll (given data)) in *.
  assert (BK : forall l E, Forall (gives hub) l -> fold_left (pool_call cs) l E hub = E hub /\ forall a, In a (map sy_dst l) \/ E a = E hub -> fold_left (pool_call cs) l E a = E hub).
  { clear - CW. induction l as [|c l IH]; intros E F; [split; [reflexivity|intros a [[]|H]; exact H]|]. inversion F as [|? ? (S0 & D0 & B1 & B2) F']; subst. destruct (IH (pool_call cs E c) F') as (H1 & H2). cbn [fold_left map].
    assert (Q : pool_call cs E c (sy_src c) = E (sy_src c)) by (unfold pool_call; destruct (Nat.eqb (sy_src c) (sy_dst c)) eqn:X; [apply Nat.eqb_eq in X; congruence|reflexivity]).
    assert (Q' : pool_call cs E c (sy_dst c) = E (sy_src c)) by (unfold pool_call; rewrite Nat.eqb_refl; now apply pool_plain).
    rewrite Q in H1, H2. split; [exact H1|]. intros a H. apply H2. destruct H as [[<-|I]|H]; [right; exact Q'|now left|]. right.
    unfold pool_call. destruct (Nat.eqb a (sy_dst c)) eqn:X; [now apply pool_plain|exact H]. }
  destruct (BK back D BA) as (BH & BO). split.
  - intros k. assert (X : lookup w2 hub (fst k) (snd k) <> None <-> exists x, In x (D hub) /\ row_key cs x = k).
    { pose proof (sd_data _ _ _ _ _ _ S2 hub LH) as CA. rewrite BH in CA. split; [exact (ca_only _ _ _ _ CA k)|]. intros (x & I & <-). destruct (ca_rows _ _ _ _ CA x I) as (r & o & -> & _). discriminate. }
    rewrite X, CK. split.
    + intros (a & x & Ia & I & E). assert (LA : a < length data).
      { destruct (Nat.lt_ge_cases a (length data)) as [|GE]; [assumption|]. unfold given in I. rewrite nth_overflow in I by exact GE. destruct I. }
      exists a, (given data a), x. split; [exact Ia|]. split; [now apply nth_error_nth'|auto].
    + intros (a & rows & x & Ia & R & I & E). exists a, x. split; [exact Ia|]. split; [|exact E]. unfold given. rewrite (nth_error_nth _ _ _ R). exact I.
  - intros a Ia. assert (LA : a < length (w_ads w)).
    { apply in_map_iff in Ia as (c & <- & Ic). rewrite Forall_forall in AC. destruct (AC c) as (_ & _ & (da & DA & _) & _); [apply in_app_iff; auto|]. apply nth_error_Some. congruence. }
    assert (EQ : fold_left (pool_call cs) back D hub = fold_left (pool_call cs) back D a) by (rewrite BH; symmetry; apply BO; now left).
    split; [exact (steady_copy fuel cs tops (w_ads w) data CW _ w2 hub a S2 LH LA EQ)|exact (steady_copy fuel cs tops (w_ads w) data CW _ w2 a hub S2 LA LH (eq_sym EQ))].
Qed.
Print Assumptions C79_hub.

(** The first of three adapters collects from the other two and gives them everything; then an intersection. *)
Definition call79 (dst src : aid) (flags : N) : sync_call := mkCall dst src default_hooks base_class flags false.
Definition union79 : list sync_call := [call79 0 1 4; call79 0 2 4; call79 1 0 0; call79 2 0 0].
Lemma crowd79 : crowd 20 s_classes ["site"]%string (w_ads w77) data77.
Proof.
  split.
  - reflexivity.
  - intros ad I. repeat (destruct I as [<-|I]; [split; reflexivity|]). destruct I.
  - constructor; [intros []|constructor].
  - intros rows I. destruct I as [<-|I]; [apply dataset_ok; vm_compute; reflexivity|]. destruct I as [<-|I]; [apply dataset_ok; vm_compute; reflexivity|]. destruct I as [<-|I]; [apply dataset_ok; vm_compute; reflexivity|]. destruct I.
  - apply matching_ok. vm_compute. reflexivity.
  - apply proper_ok. vm_compute. reflexivity.
  - apply (shallow_ok _ level75). vm_compute. reflexivity.
  - apply no_flags_ok. vm_compute. reflexivity.
Qed.
Lemma any79 dst src flags : dst < 3 -> src < 3 -> src <> dst -> any_call (w_ads w77) (call79 dst src flags).
Proof. intros LD LS NE. destruct (plain77 dst src LD LS NE) as (A & B & C & D & E & _). split; [exact A|]. split; [exact B|]. split; [exact C|]. split; [exact D|exact E]. Qed.
Definition names79 (calls : list sync_call) (a : aid) : list string := map (fun x => snd (row_key s_classes x)) (pooled s_classes calls data77 a).
Example C79_example :
  w_ok w77 /\ crowd 20 s_classes ["site"]%string (w_ads w77) data77 /\ Forall (any_call (w_ads w77)) (union79 ++ [call79 1 2 2; call79 0 1 6]) /\
  Forall (collects 0) (firstn 2 union79) /\ Forall (gives 0) (skipn 2 union79) /\
  map (names79 []) (seq 0 3) =
    [["nyc"; "r1"; "r1__eth0"; "r1__eth1"; "sfo"; "r2"; "r2__eth0"]; ["lon"; "nyc"; "r9"; "r9__eth0"; "r2"; "r1"; "r1__eth0"]; ["sfo"; "r5"; "r5__eth7"]]%string /\
  names79 union79 2 = ["sfo"; "r5"; "r5__eth7"; "lon"; "nyc"; "r9"; "r9__eth0"; "r2"; "r1"; "r1__eth0"; "r1__eth1"; "r2__eth0"]%string /\
  map (sites (end77 union79)) (seq 0 3) = [[true; true; true]; [true; true; true]; [true; true; true]] /\
  map (sites (end77 [call79 1 2 2; call79 0 1 6])) (seq 0 3) = [[true; false; true]; [false; false; false]; [false; false; true]].
Proof.
  split; [apply w_okb_ok; reflexivity|]. split; [exact crowd79|]. split; [repeat constructor; apply any79; lia|]. split; [repeat constructor; discriminate|]. split; [repeat constructor; discriminate|].
  vm_compute. repeat split.
Qed.

(** The order in which an adapter collects matters: it has the values of the last one. *)
Theorem C79_order_refuted : exists fuel cs tops w data hub calls calls' w',
  w_ok w /\ (forall ad, In ad (w_ads w) -> ad_store ad = SLocal []) /\ crowd fuel cs tops (w_ads w) data /\ 2 <= fuel /\
  Forall (any_call (w_ads w)) calls /\ Forall (collects hub) calls /\ Permutation calls calls' /\
  (load_each 0 data ;;; sync_each fuel calls) w = (w', Ok tt) /\ ~ has_data w' hub cs (pooled cs calls' data hub).
Proof.
  exists 20, s_classes, ["site"]%string, w77, data77, 2, [call79 2 0 4; call79 2 1 4], [call79 2 1 4; call79 2 0 4], (end77 [call79 2 0 4; call79 2 1 4]).
  split; [apply w_okb_ok; reflexivity|]. split; [intros ad I; repeat (destruct I as [<-|I]; [reflexivity|]); destruct I|]. split; [exact crowd79|]. split; [lia|].
  split; [repeat constructor; apply any79; lia|]. split; [repeat constructor; discriminate|]. split; [apply perm_swap|]. split; [apply end77_ok; vm_compute; reflexivity|].
  set (w' := end77 _). intros (H & _).
  set (x := nth 5 rows_a (site "" [])). assert (I : In x (pooled s_classes [call79 2 1 4; call79 2 0 4] data77 2)) by (vm_compute; tauto).
  destruct (dget s_classes (r_type x)) as [c|] eqn:D; [|vm_compute in D; discriminate]. destruct (H x c I D) as (r & o & L & N & _ & V & _).
  assert (IR : In "role"%string (c_identifiers c ++ c_attributes c)) by (vm_compute in D; injection D as <-; vm_compute; tauto).
  destruct (V _ IR) as (v & v' & E1 & E2 & Q).
  assert (X : match lookup w' 2 "device" "r2" with Some r => match nth_error (w_heap w') r with Some o => dget (o_vals o) "role" | None => None end | None => None end = Some (VStr "spare")) by (vm_compute; reflexivity).
  change (fst (row_key s_classes x)) with "device"%string in L. change (snd (row_key s_classes x)) with "r2"%string in L. rewrite L, N, E2 in X. injection X as ->.
  vm_compute in D. injection D as <-. vm_compute in E1. injection E1 as <-. vm_compute in Q. discriminate.
Qed.
Print Assumptions C79_order_refuted.
