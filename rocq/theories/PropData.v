(** * PropData: a diff depends on the data alone (C54-C56).

    [has_entries w a ad l]: adapter [a] of [w] holds the entries [l], in a LocalStore or on a
    Redis server; [shuffled], [own_keys], [resorted_tree], ... are defined in DataSpec.v. *)
From Verif Require Import DifferLast DataSpec DataFacts DataOrder DataTrans DataSample.

(** C54.  Diffs do not depend on the back ends: adapters holding the same entries in
    either kind of store, in any combination, give the same diff or the same error. *)
Theorem C54_back_end : forall w w' n flags dc cb cb' src dst src' dst' sa da sa' da' ls ld ls' ld',
  w_ok w -> w_ok w' ->
  has_entries w src sa ls -> has_entries w dst da ld -> has_entries w' src' sa' ls' -> has_entries w' dst' da' ld' ->
  ad_name sa' = ad_name sa -> ad_top sa' = ad_top sa -> ad_name da' = ad_name da -> ad_top da' = ad_top da ->
  Forall2 same_entry ls ls' -> Forall2 same_entry ld ld' -> plain_types sa ls -> plain_types da ld ->
  snd (diff_from n dst src dc flags cb w) = snd (diff_from n dst' src' dc flags cb' w').
Proof. exact diff_from_data. Qed.
Print Assumptions C54_back_end.

(** ... and every adapter holds some entries. *)
Theorem C54_local : forall w a ad d, w_ok w -> nth_error (w_ads w) a = Some ad -> ad_store ad = SLocal d -> NoDup (dkeys d) ->
  exists l, has_entries w a ad l.
Proof. exact (fun w a ad d OK A S N => ex_intro _ _ (local_has w a ad d OK A S N)). Qed.
Print Assumptions C54_local.
Theorem C54_redis : forall w a ad i reg, nth_error (w_ads w) a = Some ad -> ad_store ad = SRedis i -> plain i = true -> server_holds w reg ->
  exists l, has_entries w a ad l.
Proof. exact (fun w a ad i reg A S P H => ex_intro _ _ (redis_has w a ad i reg A S P H)). Qed.
Print Assumptions C54_redis.

Example C54_example :
  snd (diff_from 20 1 0 base_class 0 false w0) = Ok d0 /\ snd (diff_from 20 1 0 base_class 0 true w_mixed) = Ok d0 /\
  has_entries w0 0 (mk_ad "src" (SLocal src_data)) l_src /\ has_entries w_mixed 0 (mk_ad "src" (SRedis "s")) l_src' /\
  Forall2 same_entry l_src l_src' /\ has_entries w_mixed 1 (mk_ad "dst" (SLocal dst_data)) l_dst /\
  plain_types (mk_ad "src" (SLocal src_data)) l_src /\ plain_types (mk_ad "dst" (SLocal dst_data)) l_dst.
Proof.
  split; [vm_compute; reflexivity|]. split; [vm_compute; reflexivity|]. split; [exact w0_src|]. split; [exact mixed_src|].
  split; [exact mixed_same|]. split; [exact mixed_dst|]. split; apply plain_typesb; reflexivity.
Qed.

(** With ':' in the name of a type the back ends differ: the objects of type "site" are
    found on the server as well as those of type "site:x". *)
Definition c_odd : cls := mkCls "site:x" ["name"] [] [] [] [("name", None)] [] 0.
Definition odd (name : string) : obj := mkObj c_odd [("name", VStr name)] [] 0 None StSuccess "".
Definition odd_world (st : store) : world :=
  mkWorld [odd "a"] [mkAdapter "src" "Sample" ["site"] [("site:x", c_odd)] st; mkAdapter "dst" "Sample" ["site"] [] (SLocal [])]
          [(redis_key "s" "site:x" "a", odd "a")] [].
Theorem C54_colon_refuted : exists w w' d d',
  (exists dat, option_map ad_store (nth_error (w_ads w) 0) = Some (SLocal dat) /\ bucket dat "site:x" = [("a", 0)] /\ bucket dat "site" = []) /\
  option_map ad_store (nth_error (w_ads w') 0) = Some (SRedis "s") /\ w_redis w' = [(redis_key "s" "site:x" "a", odd "a")] /\
  nth_error (w_heap w) 0 = Some (odd "a") /\
  snd (diff_from 20 1 0 base_class 0 false w) = Ok d /\ snd (diff_from 20 1 0 base_class 0 false w') = Ok d' /\
  diff_has_diffs d = false /\ diff_has_diffs d' = true.
Proof.
  exists (odd_world (SLocal [("site:x", [("a", 0)])])), (odd_world (SRedis "s")). do 2 eexists.
  split; [eexists; repeat split|]. repeat (split; [vm_compute; reflexivity|]). vm_compute. reflexivity.
Qed.
Print Assumptions C54_colon_refuted.

(** C55.  The order in which objects and children were added, and that of the top-level
    types, only shows in the order of siblings. *)
Theorem C55_order : forall w w' n flags dc cb cb' src dst src' dst' sa da sa' da' ls ld ls' ld' d,
  w_ok w -> w_ok w' ->
  has_entries w src sa ls -> has_entries w dst da ld -> has_entries w' src' sa' ls' -> has_entries w' dst' da' ld' ->
  ad_name sa' = ad_name sa -> ad_name da' = ad_name da ->
  NoDup (ad_top sa) -> NoDup (ad_top da) -> Permutation (ad_top sa) (ad_top sa') -> Permutation (ad_top da) (ad_top da') ->
  shuffled ls ls' -> shuffled ld ld' -> own_keys ls -> own_keys ld -> plain_types sa ls -> plain_types da ld ->
  snd (diff_from n dst src dc flags cb w) = Ok d ->
  exists d', snd (diff_from n dst' src' dc flags cb' w') = Ok d' /\
    resorted_tree (d_groups d) (d_groups d') /\ d_class d' = d_class d /\ d_processed d' = d_processed d /\
    (yields_once (dc_order dc) -> diff_counts d' = diff_counts d /\ diff_skip d' = diff_skip d /\ diff_has_diffs d' = diff_has_diffs d).
Proof. exact diff_from_reorder. Qed.
Print Assumptions C55_order.

Example C55_example :
  (exists d', snd (diff_from 20 1 0 base_class 0 false w_shuffled) = Ok d' /\ d_groups d' <> d_groups d0 /\ diff_counts d' = diff_counts d0) /\
  shuffled l_src l_src2 /\ own_keys l_src /\ own_keys l_dst /\ shuffled l_dst l_dst /\
  has_entries w_shuffled 0 (mk_ad "src" (SLocal src_data2)) l_src2 /\ has_entries w_shuffled 1 (mk_ad "dst" (SLocal dst_data)) l_dst.
Proof.
  split; [eexists; split; [vm_compute; reflexivity|split; [vm_compute; discriminate|vm_compute; reflexivity]]|].
  split; [exact src_shuffled|]. split; [exact l_src_keys|]. split; [exact l_dst_keys|]. split; [apply same_shuffled|].
  split; [exact shuffled_has|exact shuffled_dst].
Qed.

(** C56.  Having no differences is transitive ... *)
Theorem C56_transitive : forall w a b c sa sb sc f1 f2 f3 n m dc1 dc2 dc3 cb1 cb2 cb3 d1 d2,
  w_ok w -> shared_classes w -> unflagged w -> attributes_present w -> proper_dicts w ->
  nth_error (w_ads w) a = Some sa -> nth_error (w_ads w) b = Some sb -> nth_error (w_ads w) c = Some sc ->
  N.testbit f1 1 = false -> N.testbit f1 2 = false -> N.testbit f2 1 = false -> N.testbit f2 2 = false -> N.testbit f3 1 = false -> N.testbit f3 2 = false ->
  (forall t, In t (ad_top sa) -> In t (ad_top sc) -> In t (ad_top sb)) -> NoDup (ad_top sc) ->
  snd (diff_from n b a dc1 f1 cb1 w) = Ok d1 -> diff_has_diffs d1 = false ->
  snd (diff_from m c b dc2 f2 cb2 w) = Ok d2 -> diff_has_diffs d2 = false ->
  exists d3, snd (diff_from n c a dc3 f3 cb3 w) = Ok d3 /\ diff_has_diffs d3 = false.
Proof. exact diff_from_trans. Qed.
Print Assumptions C56_transitive.

(** ... but not when an object in the middle is flagged IGNORE, or its type is not compared. *)
Definition no_diffs (w : world) (a b : aid) : Prop :=
  exists d, snd (diff_from 20 b a base_class 0 false w) = Ok d /\ diff_has_diffs d = false.
Definition some_diffs (w : world) (a b : aid) : Prop :=
  exists d, snd (diff_from 20 b a base_class 0 false w) = Ok d /\ diff_has_diffs d = true.
Theorem C56_ignore_refuted : exists w, w_ok w /\ no_diffs w 0 1 /\ no_diffs w 1 2 /\ some_diffs w 0 2.
Proof.
  exists (w_three (VInt 1) (VInt 2) (VInt 3) 1 ["site"]). split; [apply w_okb_ok; reflexivity|].
  repeat split; eexists; (split; [vm_compute; reflexivity|vm_compute; reflexivity]).
Qed.
Print Assumptions C56_ignore_refuted.
Theorem C56_top_refuted : exists w, w_ok w /\ unflagged w /\ no_diffs w 0 1 /\ no_diffs w 1 2 /\ some_diffs w 0 2.
Proof.
  exists (w_three (VInt 1) (VInt 2) (VInt 3) 0 ["device"]). split; [apply w_okb_ok; reflexivity|].
  split; [intros o [I|[]]; simpl in I; intuition (subst; reflexivity)|].
  repeat split; eexists; (split; [vm_compute; reflexivity|vm_compute; reflexivity]).
Qed.
Print Assumptions C56_top_refuted.

Example C56_example : let w := w_three (VInt 1) (VBool true) (VInt 1) 0 ["site"] in
  no_diffs w 0 1 /\ no_diffs w 1 2 /\ shared_classes w /\ unflagged w /\ attributes_present w /\ proper_dicts w.
Proof.
  split; [eexists; split; vm_compute; reflexivity|]. split; [eexists; split; vm_compute; reflexivity|].
  assert (X : forall P : obj -> Prop, Forall P (w_heap (w_three (VInt 1) (VBool true) (VInt 1) 0 ["site"])) ->
    forall o, exists_in (w_three (VInt 1) (VBool true) (VInt 1) 0 ["site"]) o -> P o).
  { intros P F o [I|[]]. exact (proj1 (Forall_forall _ _) F o I). }
  split; [|split; [|split]].
  - enough (Y : forall o, exists_in (w_three (VInt 1) (VBool true) (VInt 1) 0 ["site"]) o -> (o_cls o = c_site \/ o_cls o = c_device)).
    { intros o o' I J T. destruct (Y _ I) as [A|A], (Y _ J) as [B|B]; unfold get_type in *; rewrite A, B in *; congruence || discriminate. }
    apply X. repeat (constructor; [simpl; auto|]). constructor.
  - unfold unflagged. apply X. repeat (constructor; [repeat split|]). constructor.
  - intros o k I. revert o I k. apply (X (fun o => forall k, In k (c_attributes (o_cls o)) -> dget (o_vals o) k <> None)). repeat (constructor; [simpl; intros k H; repeat (destruct H as [<-|H]; [discriminate|]); destruct H|]). constructor.
  - unfold proper_dicts. apply X. repeat (constructor; [simpl; repeat (constructor; [simpl; intuition discriminate|]); constructor|]). constructor.
Qed.
