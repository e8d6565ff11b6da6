(** * PropCostNat: how many commands a synchronisation sends that deletes in natural order (C107). *)
From Verif Require Import CostNat Samples ServerSample PropServer PropCut PropCutSync PropCost PropCostDiff.

(** C107.  NATURAL_DELETION_ORDER (children are deleted before the object) costs nothing: the bounds of C105_sync and
    C106_sync hold if no object that is read has SKIP_CHILDREN_ON_DELETE, for a given diff in which everything below a
    deletion is a deletion ... *)
Theorem C107_given : forall fuel h dst src dc flags cb d w l q, to_redis dst w -> diff_len d <> 0 -> deletes_whole (d_groups d) ->
  (forall k o, In (WGet k (Some o)) l -> N.testbit (o_flags o) 1 = false) ->
  talk (issued dst (KSync fuel h src dc flags cb (Some d)) w) l q -> length l <= 5 * diff_len d.
Proof. exact nat_given. Qed.
Print Assumptions C107_given.
(** ... which is so for a diff that was computed, whatever the server replied meanwhile. *)
Theorem C107_whole : forall fuel dst src dc flags cb w l w' d,
  talk (issued dst (KDiff fuel src dc flags cb) w) l (Done (w', Ok (RDiff d))) -> deletes_whole (d_groups d).
Proof. exact call_whole. Qed.
Print Assumptions C107_whole.
(** So a synchronisation that is not given a diff sends no more than in C106_sync. *)
Theorem C107_computed : forall kinds fuel h dst src dc flags cb w sa da rs l q, nth_error (w_ads w) src = Some sa -> nth_error (w_ads w) dst = Some da ->
  store_kind src w rs -> store_kind dst w true -> NoDup (ad_top da) -> (forall r o, nth_error (w_heap w) r = Some o -> by_type kinds o) ->
  (forall k o, In (WGet k (Some o)) l -> by_type kinds o) -> (forall k o, In (WGet k (Some o)) l -> N.testbit (o_flags o) 1 = false) ->
  talk (issued dst (KSync fuel h src dc flags cb None) w) l q ->
  exists l1 l2, l = l1 ++ l2 /\
    (let c := (if rs then 1 else 0) + 1 in length l1 <= c + (length (ad_top da) + length (ad_top sa)) + keys_listed (skipn c l1) + children_read l1) /\
    (l2 = [] \/ exists w' d, talk (issued dst (KDiff fuel src dc flags cb) w) l1 (Done (w', Ok (RDiff d))) /\ length l2 <= 5 * diff_len d).
Proof. exact nat_computed. Qed.
Print Assumptions C107_computed.

(** The bound is reached: C105_example with the flag on the site, whose devices now go first *)
Example C107_example :
  to_redis 1 w_pay /\ diff_len (x_pay 16) = 3 /\ is_done (d_pay 16) 1 (c_pay 16) w_pay = true /\
  (forall k o, In (WGet k (Some o)) (log_of (d_pay 16) 1 (c_pay 16) w_pay) -> N.testbit (o_flags o) 1 = false) /\
  map word (log_of (d_pay 16) 1 (c_pay 16) w_pay) =
    ["GET diffsync:blue:site:nyc"; "GET diffsync:green:site:nyc";
     "GET diffsync:blue:device:r1"; "GET diffsync:green:device:r1"; "EXISTS diffsync:green:device:r1"; "DELETE diffsync:green:device:r1"; "SCAN diffsync:green:*";
     "GET diffsync:blue:device:r2"; "GET diffsync:green:device:r2"; "EXISTS diffsync:green:device:r2"; "DELETE diffsync:green:device:r2"; "SCAN diffsync:green:*";
     "EXISTS diffsync:green:site:nyc"; "DELETE diffsync:green:site:nyc"; "SCAN diffsync:green:*"]%string /\
  length (log_of (d_pay 16) 1 (KSync 20 default_hooks 0 base_class 0 false None) w_pay) = 7 + 15.
Proof.
  split; [eexists _, "green"%string; split; reflexivity|]. split; [vm_compute; reflexivity|]. split; [vm_compute; reflexivity|].
  split. { intros k o I. vm_compute in I. repeat destruct I as [I|I]; try discriminate I; [..|destruct I]; injection I as <- <-; reflexivity. }
  split; vm_compute; reflexivity.
Qed.

(** Not for any diff: below a deletion, an element that is not one makes the syncer forget that it was deleting (the
    action is kept in the syncer and is overwritten by each child), so that the object is not deleted and its children
    are visited again; the commands double with each level. *)
Definition e_leaf : elem := mkElem "site" "z" [("name", VStr "z")] "src" "dst" (Some [("region", VStr "east")]) (Some [("region", VStr "east")]) [].
Definition e_over (x : string) (k : elem) : elem :=
  mkElem "site" x [("name", VStr x)] "src" "dst" None (Some [("region", VStr "east")]) [("site", [(e_name k, k)])].
Definition x_chain (l : list string) : diff := let e := fold_right e_over e_leaf l in mkDiff base_class [("site", [(e_name e, e)])] 0.
Definition d_chain (l : list string) : dict obj := map (fun x => ("diffsync:green:site:" ++ x, mk_site x "east" [] 16 1)%string) (l ++ ["z"%string]).
Definition k_chain (l : list string) : call := KSync 20 default_hooks 0 base_class 0 false (Some (x_chain l)).
Lemma chain_log : forall k o, In (WGet k (Some o)) (fst (logged 100 (d_chain ["a"; "b"; "c"]%string) (issued 1 (k_chain ["a"; "b"; "c"]%string) w_pay))) -> N.testbit (o_flags o) 1 = false.
Proof.
  assert (B : forallb (fun m => match m with WGet _ (Some o) => negb (N.testbit (o_flags o) 1) | _ => true end)
    (fst (logged 100 (d_chain ["a"; "b"; "c"]%string) (issued 1 (k_chain ["a"; "b"; "c"]%string) w_pay))) = true) by (vm_compute; reflexivity).
  intros k o I. apply (proj1 (forallb_forall _ _) B) in I. clear B. cbn beta iota in I. now destruct (N.testbit (o_flags o) 1).
Qed.
Example C107_chain : forall l, In l [[]; ["a"]; ["a"; "b"]; ["a"; "b"; "c"]; ["a"; "b"; "c"; "d"]]%string ->
  diff_len (x_chain l) = S (length l) /\ is_done (d_chain l) 1 (k_chain l) w_pay = true /\ length (log_of (d_chain l) 1 (k_chain l) w_pay) = 2 ^ (length l + 2) - 2.
Proof. intros l I. repeat destruct I as [<-|I]; [..|destruct I]; vm_compute; repeat split. Qed.
Theorem C107_mixed_refuted : ~ (forall fuel h dst src dc flags cb d w l q, to_redis dst w -> diff_len d <> 0 ->
  (forall k o, In (WGet k (Some o)) l -> N.testbit (o_flags o) 1 = false) ->
  talk (issued dst (KSync fuel h src dc flags cb (Some d)) w) l q -> length l <= 5 * diff_len d).
Proof.
  intros H. specialize (H 20 default_hooks 1 0 base_class 0%N false (x_chain ["a"; "b"; "c"]%string) w_pay _ _ (ex_intro _ _ (ex_intro _ "green"%string (conj eq_refl eq_refl)))
    ltac:(vm_compute; discriminate) chain_log (logged_talk 100 (d_chain ["a"; "b"; "c"]%string) (issued 1 (k_chain ["a"; "b"; "c"]%string) w_pay))).
  apply Nat.leb_le in H. vm_compute in H. discriminate H.
Qed.
Print Assumptions C107_mixed_refuted.
