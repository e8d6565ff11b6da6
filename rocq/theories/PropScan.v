(** * PropScan: a server that answers SCAN in any order and with repetitions (C83).

    [rstep] (ScanSpec.v) is [cstep] with any answer to SCAN that Redis may give; [made] (ConcSpec.v) is the call as one
    step, in which SCAN answers each key once, in order of insertion. *)
From Verif Require Import ScanDiff DataSpec DataOrder DiffFacts SyncFrom Samples DataSample.

(** C83.  Calls that do not hand on a list of keys do not notice: the same server, the same memory, the same replies ... *)
Theorem C83_calls : forall l w d d' w' xs, w_redis w = [] -> Forall (fun ac => no_listing (snd ac)) l ->
  many rstep (d, issued_all l w) (d', Done (w', xs)) -> made_all l (set_redis w d) = (set_redis w' d', xs).
Proof.
  intros l w d d' w' xs Z F R. apply louts_iff, (even_louts _ (even_all l F w)) in R. rewrite (history_alone l w d Z) in R. destruct (made_all l (set_redis w d)) as [W ys]. cbn [fst snd] in R.
  injection R as <- <- <-. now rewrite redis_twice, redis_eta.
Qed.
Print Assumptions C83_calls.
(** ... also when several processes take turns: everything that is known about them (C68, C69, C71) still holds. *)
Theorem C83_processes : forall ps d s, Forall (fun p => Forall (fun ac => no_listing (snd ac)) (pr_calls p)) ps ->
  many rsys_step (d, map started ps) s <-> many sys_step (d, map started ps) s.
Proof.
  intros ps d s F. split; intros H.
  - apply even_system; [exact H|]. cbn [snd]. apply Forall_forall. intros p I. apply in_map_iff in I as (q & <- & I). apply even_all. exact (proj1 (Forall_forall _ _) F q I).
  - clear F. induction H as [s|s s1 s2 H _ IH]; [apply many_none|]. eapply many_more; [|exact IH]. inversion H; subst. econstructor; [eassumption|now apply as_before].
Qed.
Print Assumptions C83_processes.

(** On a RedisStore: get_all_model_names gives the same names, each once (in Python a set); *)
Theorem C83_names : forall a ad i w d d' w' r, w_redis w = [] -> nth_error (w_ads w) a = Some ad -> ad_store ad = SRedis i ->
  many rstep (d, issued a KNames w) (d', Done (w', r)) ->
  d' = d /\ w' = w /\ exists ns ns', snd (made a KNames (set_redis w d)) = Ok (RNames ns) /\ r = Ok (RNames ns') /\
    NoDup ns' /\ forall n, In n ns' <-> In n ns.
Proof. exact loose_names. Qed.
Print Assumptions C83_names.
(** get_all gives objects for the same entries, some perhaps more than once; *)
Theorem C83_all : forall a ad i m w d d' w' r, w_redis w = [] -> nth_error (w_ads w) a = Some ad -> ad_store ad = SRedis i ->
  many rstep (d, issued a (KGetAll m) w) (d', Done (w', r)) ->
  d' = d /\ exists W rs rs', made a (KGetAll m) (set_redis w d) = (W, Ok (RRefs rs)) /\ r = Ok (RRefs rs') /\
    forall o, In (Some o) (map (nth_error (w_heap w')) rs') <-> In (Some o) (map (nth_error (w_heap W)) rs).
Proof. exact loose_all. Qed.
Print Assumptions C83_all.
(** count gives at least the number of objects, and zero only if there are none. *)
Theorem C83_count : forall a ad i m w d d' w' r, w_redis w = [] -> nth_error (w_ads w) a = Some ad -> ad_store ad = SRedis i -> NoDup (dkeys d) ->
  many rstep (d, issued a (KCount m) w) (d', Done (w', r)) ->
  d' = d /\ w' = w /\ exists n n', snd (made a (KCount m) (set_redis w d)) = Ok (RNat n) /\ r = Ok (RNat n') /\ n <= n' /\ (n' = 0 <-> n = 0).
Proof. exact loose_count. Qed.
Print Assumptions C83_count.

(** A diff is the same but for the order of siblings and the number of models processed, which can only be larger;
    the summary (without "skip") and has_diffs are the same.  It fails if and only if it fails otherwise. *)
Theorem C83_diff : forall n dst src dc flags cb w d d' w' r sa da ls ld, w_redis w = [] -> w_ok (set_redis w d) ->
  has_entries (set_redis w d) src sa ls -> has_entries (set_redis w d) dst da ld ->
  own_keys ls -> own_keys ld -> plain_types sa ls -> plain_types da ld ->
  many rstep (d, issued dst (KDiff n src dc flags cb) w) (d', Done (w', r)) ->
  d' = d /\
  match snd (diff_from n dst src dc flags cb (set_redis w d)) with
  | Ok D => exists D', r = Ok (RDiff D') /\ resorted_tree (d_groups D) (d_groups D') /\ d_class D' = d_class D /\ d_processed D <= d_processed D' /\
              (yields_once (dc_order dc) -> diff_counts D' = diff_counts D /\ diff_has_diffs D' = diff_has_diffs D)
  | Err _ => exists e, r = Err e
  end.
Proof. exact loose_diff_call. Qed.
Print Assumptions C83_diff.

(** A synchronisation computes such a diff [D] and then does with it exactly what it does with any diff. *)
Theorem C83_sync : forall fuel h dst src dc flags cb given w d d' w' r, w_redis w = [] ->
  match given with Some D => diff_len D = 0 | None => True end ->
  many rstep (d, issued dst (KSync fuel h src dc flags cb given) w) (d', Done (w', r)) ->
  exists w1 r1, many rstep (d, issued dst (KDiff fuel src dc flags cb) w) (d, Done (w1, r1)) /\
    match r1 with
    | Err e => d' = d /\ w' = w1 /\ r = Err e
    | Ok (RDiff D) => mfmap RDiff (run_sync (mkSEnv src dst flags (diff_len D) cb (unseeing h) fuel) D) (set_redis w1 d) = (set_redis w' d', r) /\ w_redis w' = []
    | Ok _ => False
    end.
Proof. exact loose_sync. Qed.
Print Assumptions C83_sync.

(** A server that answers each key twice, the last ones first *)
Definition twice_back (l : list string) : list string := rev l ++ l.
Fixpoint lrun {A} (d : dict obj) (p : cprog A) : dict obj * A :=
  match p with
  | Done x => (d, x)
  | CGet k f => lrun d (f (dget d k))
  | CSet k o p => lrun (dset d k o) p
  | CExists k f => lrun d (f (match dget d k with Some _ => true | None => false end))
  | CDelete k p => lrun (ddel d k) p
  | CScan pat f => lrun d (f (twice_back (filter (glob pat) (dkeys d))))
  end.
Lemma lrun_runs {A} (p : cprog A) : forall d, many rstep (d, p) (fst (lrun d p), Done (snd (lrun d p))).
Proof.
  intros d. apply louts_iff. revert d. induction p as [x|k f IH|k o p IH|k f IH|k p IH|pat f IH]; intros d; cbn [louts lrun]; try apply IH.
  - split; reflexivity.
  - eexists. split; [|apply IH]. intros k. unfold twice_back. rewrite in_app_iff, <- in_rev. tauto.
Qed.
Lemma lrun_is {A} (p : cprog A) d d' x : lrun d p = (d', x) -> many rstep (d, p) (d', Done x).
Proof. intros E. pose proof (lrun_runs p d) as R. rewrite E in R. exact R. Qed.
Definition w_loose : world := set_redis w_mixed [].
Definition d_loose : dict obj := w_redis w_mixed.

(** reads, a write and a removal that are the same, on a server with seven entries *)
Definition few_calls : list (aid * call) :=
  [(0, KGet (MName "site") (IdStr "nyc")); (0, KByUids ["r1"; "r2"] (MName "device")); (0, KAdd 0); (0, KRemove 20 0 true); (0, KGetOrNone (MName "site") (IdStr "nyc"))].
Example C83_calls_example : let run := lrun d_loose (issued_all few_calls w_loose) in
  w_redis w_loose = [] /\ Forall (fun ac => no_listing (snd ac)) few_calls /\ length d_loose = 7 /\
  many rstep (d_loose, issued_all few_calls w_loose) (fst run, Done (snd run)) /\
  map (fun r => match r with Ok _ => true | Err _ => false end) (snd (snd run)) = [true; true; true; true; true] /\ length (fst run) = 2 /\
  made_all few_calls (set_redis w_loose d_loose) = (set_redis (fst (snd run)) (fst run), snd (snd run)).
Proof.
  cbv zeta. split; [reflexivity|]. split; [repeat constructor|]. split; [reflexivity|]. split; [apply lrun_runs|]. split; [vm_compute; reflexivity|]. split; [vm_compute; reflexivity|]. vm_compute. reflexivity.
Qed.
Lemma diff_reply (a b : diff) : @Ok reply (RDiff a) = Ok (RDiff b) -> b = a.
Proof. now injection 1. Qed.
Example C83_example :
  let D' := match snd (snd (lrun d_loose (issued 1 (KDiff 20 0 base_class 0 true) w_loose))) with Ok (RDiff D) => D | _ => mkDiff base_class [] 0 end in
  w_redis w_loose = [] /\ w_ok (set_redis w_loose d_loose) /\
  has_entries (set_redis w_loose d_loose) 0 (mk_ad "src" (SRedis "s")) l_src' /\ has_entries (set_redis w_loose d_loose) 1 (mk_ad "dst" (SLocal dst_data)) l_dst /\
  snd (diff_from 20 1 0 base_class 0 true (set_redis w_loose d_loose)) = Ok d0 /\
  (exists w', many rstep (d_loose, issued 1 (KDiff 20 0 base_class 0 true) w_loose) (d_loose, Done (w', Ok (RDiff D')))) /\
  D' <> d0 /\ resorted_tree (d_groups d0) (d_groups D') /\ diff_counts D' = diff_counts d0 /\ d_processed d0 < d_processed D'.
Proof.
  set (D' := match snd (snd (lrun d_loose (issued 1 (KDiff 20 0 base_class 0 true) w_loose))) with Ok (RDiff D) => D | _ => mkDiff base_class [] 0 end).
  assert (R : exists w', many rstep (d_loose, issued 1 (KDiff 20 0 base_class 0 true) w_loose) (d_loose, Done (w', Ok (RDiff D')))).
  { exists (fst (snd (lrun d_loose (issued 1 (KDiff 20 0 base_class 0 true) w_loose)))). apply lrun_is. vm_compute. reflexivity. }
  assert (O : snd (diff_from 20 1 0 base_class 0 true (set_redis w_loose d_loose)) = Ok d0) by (vm_compute; reflexivity).
  cbv zeta. do 4 (split; [first [reflexivity|exact mixed_ok|exact mixed_src|exact mixed_dst]|]). split; [exact O|]. split; [exact R|]. destruct R as (w' & R).
  assert (KS : own_keys l_src').
  { apply own_keysb; [vm_compute; reflexivity|]. vm_compute. repeat (constructor; [simpl; intuition discriminate|]). constructor. }
  assert (PS : plain_types (mk_ad "src" (SRedis "s")) l_src') by (apply plain_typesb; vm_compute; reflexivity).
  assert (PD : plain_types (mk_ad "dst" (SLocal dst_data)) l_dst) by (apply plain_typesb; vm_compute; reflexivity).
  destruct (C83_diff 20 1 0 base_class 0 true w_loose d_loose _ _ _ _ _ l_src' l_dst eq_refl mixed_ok mixed_src mixed_dst KS l_dst_keys PS PD R) as (_ & X).
  rewrite O in X. destruct X as (D2 & E & RT & _ & _ & X). apply diff_reply in E. rewrite E in RT, X. clear E.
  split; [intros Q; apply (f_equal (fun D => d_processed D)) in Q; vm_compute in Q; discriminate|]. split; [exact RT|].
  split; [exact (proj1 (X order_default_once))|]. apply Nat.ltb_lt. vm_compute. reflexivity.
Qed.
Example C83_reads_example : nth_error (w_ads w_loose) 0 = Some (mk_ad "src" (SRedis "s")) /\ NoDup (dkeys d_loose) /\
  (exists w', many rstep (d_loose, issued 0 KNames w_loose) (d_loose, Done (w', Ok (RNames ["site"; "device"; "interface"])))) /\
  snd (ConcSpec.made 0 KNames (set_redis w_loose d_loose)) = Ok (RNames ["site"; "device"; "interface"]) /\
  (exists w', many rstep (d_loose, issued 0 (KCount (Some (MName "site"))) w_loose) (d_loose, Done (w', Ok (RNat 4)))) /\
  snd (ConcSpec.made 0 (KCount (Some (MName "site"))) (set_redis w_loose d_loose)) = Ok (RNat 2).
Proof.
  split; [reflexivity|]. split; [apply nodupb; vm_compute; reflexivity|].
  split; [exists w_loose; apply lrun_is; vm_compute; reflexivity|]. split; [vm_compute; reflexivity|].
  split; [exists w_loose; apply lrun_is; vm_compute; reflexivity|]. vm_compute; reflexivity.
Qed.
(** a synchronisation with that diff: the same objects in the LocalStore *)
Definition local_keys (w : world) : list (string * list string) :=
  match nth_error (w_ads w) 1 with Some ad => match ad_store ad with SLocal l => map (fun b => (fst b, dkeys (snd b))) l | _ => [] end | None => [] end.
Definition loose_call : call := KSync 20 default_hooks 0 base_class 0 true None.
Example C83_sync_example : let run := lrun d_loose (issued 1 loose_call w_loose) in
  w_redis w_loose = [] /\ many rstep (d_loose, issued 1 loose_call w_loose) (fst run, Done (snd run)) /\ fst run = d_loose /\
  local_keys (fst (snd run)) = [("site", ["nyc"; "sfo"]); ("device", ["r1"; "r2"]); ("interface", ["r1__eth0"; "r1__eth1"])] /\
  local_keys (fst (ConcSpec.made 1 loose_call (set_redis w_loose d_loose))) = [("site", ["nyc"; "sfo"]); ("device", ["r1"; "r2"]); ("interface", ["r1__eth0"; "r1__eth1"])].
Proof. cbv zeta. split; [reflexivity|]. split; [apply lrun_runs|]. split; [vm_compute; reflexivity|]. split; vm_compute; reflexivity. Qed.

(** Not the same: the number of objects, the lists of get_all and the count of models left out of a diff ("skip" in its
    summary), which depend on how often SCAN answers a key. *)
Theorem C83_listing_refuted : exists w d d' w', w_redis w = [] /\ NoDup (dkeys d) /\
  snd (ConcSpec.made 0 (KCount None) (set_redis w d)) = Ok (RNat 6) /\ many rstep (d, issued 0 (KCount None) w) (d', Done (w', Ok (RNat 12))) /\
  (exists W rs w1 rs', ConcSpec.made 0 (KGetAll (MName "site")) (set_redis w d) = (W, Ok (RRefs rs)) /\ many rstep (d, issued 0 (KGetAll (MName "site")) w) (d, Done (w1, Ok (RRefs rs'))) /\
    map (fun r => option_map (fun o => get_unique_id o) (nth_error (w_heap W) r)) rs = [Some (Ok "nyc"); Some (Ok "sfo")] /\
    map (fun r => option_map (fun o => get_unique_id o) (nth_error (w_heap w1) r)) rs' = [Some (Ok "sfo"); Some (Ok "nyc"); Some (Ok "nyc"); Some (Ok "sfo")]).
Proof.
  exists w_loose, d_loose, d_loose, w_loose. split; [reflexivity|]. split; [apply nodupb; vm_compute; reflexivity|]. split; [vm_compute; reflexivity|].
  split; [apply lrun_is; vm_compute; reflexivity|].
  remember (lrun d_loose (issued 0 (KGetAll (MName "site")) w_loose)) as run eqn:E.
  exists (fst (ConcSpec.made 0 (KGetAll (MName "site")) (set_redis w_loose d_loose))), [13; 14], (fst (snd run)), [13; 14; 15; 16].
  split; [vm_compute; reflexivity|]. split; [apply lrun_is; rewrite E; vm_compute; reflexivity|]. rewrite E. split; vm_compute; reflexivity.
Qed.
Print Assumptions C83_listing_refuted.
Theorem C83_skip_refuted : exists w d d' w' D D', w_redis w = [] /\ w_ok (set_redis w d) /\
  snd (diff_from 20 1 0 base_class 0 false (set_redis w d)) = Ok D /\ many rstep (d, issued 1 (KDiff 20 0 base_class 0 false) w) (d', Done (w', Ok (RDiff D'))) /\
  diff_counts D' = diff_counts D /\ diff_skip D' <> diff_skip D.
Proof.
  remember (lrun d_loose (issued 1 (KDiff 20 0 base_class 0 false) w_loose)) as run eqn:E.
  exists w_loose, d_loose, d_loose, (fst (snd run)), d0, (match snd (snd run) with Ok (RDiff D) => D | _ => d0 end).
  split; [reflexivity|]. split; [exact mixed_ok|]. split; [vm_compute; reflexivity|]. split; [apply lrun_is; rewrite E; vm_compute; reflexivity|]. rewrite E. split; [vm_compute; reflexivity|].
  vm_compute. discriminate.
Qed.
Print Assumptions C83_skip_refuted.
