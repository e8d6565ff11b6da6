(** * PropFleet: several adapters and a sequence of synchronisations (C77).

    [fleet], [plain_call] and [origin] are defined in FleetSpec.v, the conditions on records and [has_data] in
    RowSpec.v.  [origin] only follows who synchronises from whom; it does not look at any data. *)
From Verif Require Import RowSample PropAgree PropRow FleetEnd.

(** C77.  Several adapters are filled from records, and then synchronise from each other in any order,
    any number of times.  Every call succeeds, and at the end each adapter has exactly the data of the
    records of the adapter where its data comes from. *)
Theorem C77_run : forall fuel w data calls,
  w_ok w -> (forall ad, In ad (w_ads w) -> ad_store ad = SLocal []) -> fleet fuel (w_ads w) data -> 2 <= fuel ->
  Forall (plain_call (w_ads w)) calls ->
  exists w', (load_each 0 data ;;; sync_each fuel calls) w = (w', Ok tt) /\
    forall a, a < length (w_ads w) -> exists ad rows,
      nth_error (w_ads w) (origin calls a) = Some ad /\ nth_error data (origin calls a) = Some rows /\ has_data w' a (ad_classes ad) rows.
Proof.
  intros fuel w data calls OK ES FL F2 PC. destruct (load_sound fuel (w_ads w) data FL w OK eq_refl ES) as (w1 & E1 & S1).
  destruct (run_sound fuel (w_ads w) data FL F2 calls _ w1 S1 PC) as (w2 & E2 & S2). exists w2. split; [unfold bind; now rewrite E1|].
  intros a LA. pose proof (so_from _ _ _ _ S2 a LA) as FA. destruct (at_ad (w_ads w) _ FA) as (ad & A). destruct (at_rows fuel (w_ads w) data FL _ FA) as (rows & R).
  exists ad, rows. split; [exact A|]. split; [exact R|]. exact (sound_data fuel (w_ads w) data FL _ w2 a ad rows S2 LA A R).
Qed.
Print Assumptions C77_run.

(** Any two of the adapters can be compared at the end.  They do not differ if their data comes from the
    same adapter; and without flags, they do not differ exactly if they hold the same. *)
Theorem C77_agree : forall fuel w data calls a b,
  w_ok w -> (forall ad, In ad (w_ads w) -> ad_store ad = SLocal []) -> fleet fuel (w_ads w) data -> 2 <= fuel ->
  Forall (plain_call (w_ads w)) calls -> a < length (w_ads w) -> b < length (w_ads w) -> a <> b ->
  forall dc flags cb, N.testbit flags 1 = false -> N.testbit flags 2 = false -> exists w' d,
    (load_each 0 data ;;; sync_each fuel calls) w = (w', Ok tt) /\ snd (diff_from fuel b a dc flags cb w') = Ok d /\
    (origin calls a = origin calls b -> diff_has_diffs d = false) /\
    (diff_has_diffs d = false <-> holds_copy w' a w' b).
Proof.
  intros fuel w data calls a b OK ES FL F2 PC LA LB NE dc flags cb B1 B2. destruct (load_sound fuel (w_ads w) data FL w OK eq_refl ES) as (w1 & E1 & S1).
  destruct (run_sound fuel (w_ads w) data FL F2 calls _ w1 S1 PC) as (w2 & E2 & S2). destruct (at_ad (w_ads w) a LA) as (sa & SA). destruct (at_ad (w_ads w) b LB) as (da & DA).
  destruct (sound_ready fuel (w_ads w) data FL F2 _ w2 a b sa da S2 NE SA DA) as (s & s' & H). cbv zeta in H. destruct H as (AL & CM & EN).
  destruct (C76_iff fuel b a dc flags cb w2 _ _ AL CM (EN flags B1 B2)) as (d & D & H). exists w2, d. split; [unfold bind; now rewrite E1|]. split; [exact D|]. split; [|exact H].
  intros E. apply H. exact (sound_copy fuel (w_ads w) data FL _ w2 a b S2 LA LB E).
Qed.
Print Assumptions C77_agree.

(** Three adapters: the second takes over the first, the third the second, the first is overwritten in
    turn by the third (which changes nothing), and so on *)
Definition rows_c : list row := [site "sfo" [("region", VStr "west")]; device "sfo" "r5" "leaf"; intf "r5" "eth7" []].
Definition w77 : world := mkWorld [] [mk_ad "a" (SLocal []); mk_ad "b" (SLocal []); mk_ad "c" (SLocal [])] [] [].
Definition data77 : list (list row) := [rows_a; rows_b; rows_c].
Definition call77 (dst src : aid) : sync_call := mkCall dst src default_hooks base_class 0 false.
Definition end77 (calls : list sync_call) : world := fst ((load_each 0 data77 ;;; sync_each 20 calls) w77).
Lemma end77_ok calls : snd ((load_each 0 data77 ;;; sync_each 20 calls) w77) = Ok tt -> (load_each 0 data77 ;;; sync_each 20 calls) w77 = (end77 calls, Ok tt).
Proof. unfold end77. destruct ((load_each 0 data77 ;;; sync_each 20 calls) w77) as [w r]. cbn [fst snd]. now intros ->. Qed.
Definition sites (w : world) (a : aid) : list bool :=
  map (fun u => match lookup w a "site" u with Some _ => true | None => false end) ["nyc"; "lon"; "sfo"].
Lemma fleet77 : fleet 20 (w_ads w77) data77.
Proof.
  assert (DS : forall rows, In rows data77 -> dataset s_classes ["site"] rows /\ proper_values s_classes rows /\ shallow s_classes rows 19 /\ no_flags s_classes rows).
  { intros rows I. repeat (destruct I as [<-|I]; [split; [apply dataset_ok; vm_compute; reflexivity|]; split; [apply proper_ok; vm_compute; reflexivity|];
      split; [apply (shallow_ok _ level75); vm_compute; reflexivity|apply no_flags_ok; vm_compute; reflexivity]|]). destruct I. }
  assert (AD : forall a ad, nth_error (w_ads w77) a = Some ad -> ad_classes ad = s_classes /\ ad_top ad = ["site"]%string).
  { intros a ad A. apply nth_error_In in A. repeat (destruct A as [<-|A]; [split; reflexivity|]). destruct A. }
  split.
  - reflexivity.
  - intros a ad rows A R. destruct (AD a ad A) as (-> & ->). apply nth_error_In in R. destruct (DS rows R) as (X1 & X2 & X3 & _). split; [exact X1|]. split; [exact X2|]. split; [|exact X3].
    constructor; [intros []|constructor].
  - intros a b ad bd rows rows' NE A B R R'. destruct (AD a ad A) as (-> & ->). destruct (AD b bd B) as (-> & ->). split; [|tauto].
    destruct a as [|[|[|a]]]; [| | |destruct a; discriminate]; (destruct b as [|[|[|b]]]; [| | |destruct b; discriminate]); try contradiction; injection R as <-; injection R' as <-; apply matching_ok; vm_compute; reflexivity.
  - intros a b ad rows A R. destruct (AD a ad A) as (-> & _). apply nth_error_In in R. now apply DS.
Qed.
Lemma plain77 dst src : dst < 3 -> src < 3 -> src <> dst -> plain_call (w_ads w77) (call77 dst src).
Proof.
  intros LD LS NE. split; [exact NE|]. split; [exact LS|]. split.
  - destruct (nth_error (w_ads w77) dst) as [da|] eqn:E; [|apply nth_error_None in E; cbn in E; lia]. exists da. split; [exact E|]. apply default_spares.
  - split; [exact default_succeed|]. split; [exact order_default_once|]. split; reflexivity.
Qed.
Example C77_example :
  w_ok w77 /\ fleet 20 (w_ads w77) data77 /\ Forall (plain_call (w_ads w77)) [call77 1 0; call77 2 1; call77 0 2] /\
  map (origin [call77 1 0; call77 2 1; call77 0 2]) [0; 1; 2] = [0; 0; 0] /\ map (origin [call77 1 0; call77 0 2; call77 2 1]) [0; 1; 2] = [2; 0; 0] /\
  map (sites (end77 [])) [0; 1; 2] = [[true; false; true]; [true; true; false]; [false; false; true]] /\
  map (sites (end77 [call77 1 0; call77 2 1; call77 0 2])) [0; 1; 2] = [[true; false; true]; [true; false; true]; [true; false; true]] /\
  map (sites (end77 [call77 1 0; call77 0 2; call77 2 1])) [0; 1; 2] = [[false; false; true]; [true; false; true]; [true; false; true]].
Proof.
  split; [apply w_okb_ok; reflexivity|]. split; [exact fleet77|]. split; [repeat constructor; apply plain77; lia|]. vm_compute. repeat split.
Qed.

(** With SKIP_UNMATCHED_DST, what the source does not have stays. *)
Theorem C77_skip_refuted : exists fuel w data c ad rows w',
  w_ok w /\ (forall ad, In ad (w_ads w) -> ad_store ad = SLocal []) /\ fleet fuel (w_ads w) data /\
  sy_flags c = 4%N /\ plain_call (w_ads w) (mkCall (sy_dst c) (sy_src c) (sy_hooks c) (sy_class c) 0 (sy_cb c)) /\
  (load_each 0 data ;;; sync_each fuel [c]) w = (w', Ok tt) /\
  nth_error (w_ads w) (origin [c] 1) = Some ad /\ nth_error data (origin [c] 1) = Some rows /\ ~ has_data w' 1 (ad_classes ad) rows.
Proof.
  exists 20, w77, data77, (mkCall 1 0 default_hooks base_class 4 false), (mk_ad "a" (SLocal [])), rows_a, (end77 [mkCall 1 0 default_hooks base_class 4 false]).
  split; [apply w_okb_ok; reflexivity|]. split; [intros ad I; repeat (destruct I as [<-|I]; [reflexivity|]); destruct I|]. split; [exact fleet77|]. split; [reflexivity|].
  split; [apply (plain77 1 0); lia|].
  split; [apply end77_ok; vm_compute; reflexivity|]. split; [reflexivity|]. split; [reflexivity|].
  assert (L : lookup (end77 [mkCall 1 0 default_hooks base_class 4 false]) 1 "site" "lon" = Some 7) by (vm_compute; reflexivity).
  intros (_ & H). destruct (H ("site", "lon")%string) as (x & I & E); [cbn [fst snd]; rewrite L; discriminate|].
  repeat (destruct I as [<-|I]; [vm_compute in E; discriminate|]). destruct I.
Qed.
Print Assumptions C77_skip_refuted.
