(** * PropCostDiff: how many commands a comparison sends (C106). *)
From Verif Require Import CostDiff Samples ServerSample PropServer PropCut PropCutSync PropCost.

(** C106.  A comparison sends one SCAN for each adapter on Redis (to count it), at most one for each top-level type of each
    adapter, one GET for each key that the latter list, and one for each child that an object which it read names:
    whatever the server replies, however far it has got, wherever the other adapter is.
    ([by_type]: objects of one type have the same kinds of children.) *)
Theorem C106_diff : forall kinds fuel dst src dc flags cb w sa da rs rd l q, nth_error (w_ads w) src = Some sa -> nth_error (w_ads w) dst = Some da ->
  store_kind src w rs -> store_kind dst w rd -> NoDup (ad_top da) -> (forall r o, nth_error (w_heap w) r = Some o -> by_type kinds o) ->
  (forall k o, In (WGet k (Some o)) l -> by_type kinds o) -> talk (issued dst (KDiff fuel src dc flags cb) w) l q ->
  let c := (if rs then 1 else 0) + (if rd then 1 else 0) in
  length l <= c + (length (ad_top da) + length (ad_top sa)) + keys_listed (skipn c l) + children_read l.
Proof. exact diff_cost. Qed.
Print Assumptions C106_diff.
(** A synchronisation that is not given a diff: the commands of the comparison, then at most 5 for each element of its diff. *)
Theorem C106_sync : forall kinds fuel h dst src dc flags cb w sa da rs l q, nth_error (w_ads w) src = Some sa -> nth_error (w_ads w) dst = Some da ->
  store_kind src w rs -> store_kind dst w true -> NoDup (ad_top da) -> (forall r o, nth_error (w_heap w) r = Some o -> by_type kinds o) ->
  (forall k o, In (WGet k (Some o)) l -> by_type kinds o) -> read_plainly l -> talk (issued dst (KSync fuel h src dc flags cb None) w) l q ->
  exists l1 l2, l = l1 ++ l2 /\
    (let c := (if rs then 1 else 0) + 1 in length l1 <= c + (length (ad_top da) + length (ad_top sa)) + keys_listed (skipn c l1) + children_read l1) /\
    (l2 = [] \/ exists w' d, talk (issued dst (KDiff fuel src dc flags cb) w) l1 (Done (w', Ok (RDiff d))) /\ length l2 <= 5 * diff_len d).
Proof. exact sync_whole. Qed.
Print Assumptions C106_sync.

(** The bound is reached: the comparison of C105_example *)
Definition k_diff : call := KDiff 20 0 base_class 0 false.
Definition sample_kinds (t : string) : dict string :=
  if String.eqb t "site" then [("device", "devices")] else if String.eqb t "device" then [("interface", "interfaces")] else [].
Definition of_kind (o : obj) : Prop := o_cls o = c_site \/ o_cls o = c_device.
Lemma of_kind_ok o : of_kind o -> by_type sample_kinds o.
Proof. intros [H|H]; unfold by_type; rewrite H; reflexivity. Qed.
Example C106_example :
  store_kind 0 w_pay true /\ store_kind 1 w_pay true /\ (forall ad, In ad (w_ads w_pay) -> ad_top ad = ["site"]%string) /\
  (forall r o, nth_error (w_heap w_pay) r = Some o -> by_type sample_kinds o) /\
  (forall k o, In (WGet k (Some o)) (log_of (d_pay 0) 1 k_diff w_pay) -> by_type sample_kinds o) /\
  is_done (d_pay 0) 1 k_diff w_pay = true /\
  map word (log_of (d_pay 0) 1 k_diff w_pay) =
    ["SCAN diffsync:blue:*"; "SCAN diffsync:green:*"; "SCAN diffsync:blue:site:*"; "SCAN diffsync:green:site:*"; "GET diffsync:green:site:nyc";
     "GET diffsync:green:device:r1"; "GET diffsync:green:device:r2"]%string /\
  keys_listed (skipn 2 (log_of (d_pay 0) 1 k_diff w_pay)) = 1 /\ children_read (log_of (d_pay 0) 1 k_diff w_pay) = 2 /\ 7 = 2 + (1 + 1) + 1 + 2.
Proof.
  split; [eexists; split; reflexivity|]. split; [eexists; split; reflexivity|]. split; [intros ad [<-|[<-|[]]]; reflexivity|].
  split; [intros [|[|r]] o H; try discriminate H; injection H as <-; reflexivity|].
  split. { intros k o I. apply of_kind_ok. vm_compute in I. repeat destruct I as [I|I]; try discriminate I; [..|destruct I]; injection I as <- <-; first [now left|now right]. }
  split; [vm_compute; reflexivity|]. split; [vm_compute; reflexivity|]. split; [vm_compute; reflexivity|]. split; vm_compute; reflexivity.
Qed.

(** It cannot be put in terms of what is on the server: a child that two objects name is read once for each. *)
Definition d_shared : dict obj :=
  [("diffsync:blue:site:nyc", mk_site "nyc" "east" ["r1"] 0 0); ("diffsync:blue:site:lon", mk_site "lon" "uk" ["r1"] 0 0); ("diffsync:blue:device:r1", mk_device "r1" "edge" [] 0 0);
   ("diffsync:green:site:nyc", mk_site "nyc" "east" ["r1"] 0 1); ("diffsync:green:site:lon", mk_site "lon" "uk" ["r1"] 0 1); ("diffsync:green:device:r1", mk_device "r1" "edge" [] 0 1)]%string.
Theorem C106_objects_refuted : ~ (forall n fuel dst src dc flags cb w sa da d, nth_error (w_ads w) src = Some sa -> nth_error (w_ads w) dst = Some da ->
  length (fst (logged n d (issued dst (KDiff fuel src dc flags cb) w))) <= 2 + (length (ad_top da) + length (ad_top sa)) + length d).
Proof.
  intros H. specialize (H 100 20 1 0 base_class 0%N false w_pay _ _ d_shared eq_refl eq_refl). apply Nat.leb_le in H. vm_compute in H. discriminate H.
Qed.
Print Assumptions C106_objects_refuted.
