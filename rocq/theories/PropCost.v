(** * PropCost: how many commands a call sends (C105). *)
From Verif Require Import CostSync Samples ServerSample PropServer PropCut PropCutSync.

(** C105.  However far a call has got and whatever the server has replied, it has sent no more than a fixed number of
    commands ([most]: add 2, update 1, remove without children 3, get 1, get_by_uids one for each id, ...). *)
Theorem C105_calls : forall a c w l q, simple_call c -> talk (issued a c w) l q -> length l <= most c.
Proof. exact call_cost. Qed.
Print Assumptions C105_calls.
(** get_all sends a SCAN, and no more than one command for each key that it lists. *)
Theorem C105_get_all : forall a m w l q, talk (issued a (KGetAll m) w) l q -> length l <= 1 + keys_listed l.
Proof. exact all_cost. Qed.
Print Assumptions C105_get_all.
(** remove with remove_children sends 3 commands, and 4 for each child that the object names or that an object which it
    read names. *)
Theorem C105_remove : forall fuel a r w o l q, to_redis a w -> nth_error (w_heap w) r = Some o ->
  talk (issued a (KRemove fuel r true) w) l q -> length l <= 3 + 4 * (kids_named o + children_read l).
Proof. exact remove_cost. Qed.
Print Assumptions C105_remove.
(** A synchronisation with a given diff sends at most 5 commands for each element, whatever its hooks do, whatever its
    flags, wherever the source is, however it ends and whatever other processes do meanwhile, if no object that it reads
    has a flag for its deletion. *)
Theorem C105_sync : forall fuel h dst src dc flags cb d w l q, to_redis dst w -> diff_len d <> 0 -> read_plainly l ->
  talk (issued dst (KSync fuel h src dc flags cb (Some d)) w) l q -> length l <= 5 * diff_len d.
Proof. exact sync_cost. Qed.
Print Assumptions C105_sync.
(** [talk] covers whatever happens in a system of processes. *)
Theorem C105_system : forall A n (d d' : dict obj) (ps qs : list (cprog A)) p, many sys_step (d, ps) (d', qs) -> nth_error ps n = Some p ->
  exists q l, nth_error qs n = Some q /\ talk p l q.
Proof. intros A n d d' ps qs p R N. destruct (system_talk n _ _ R p p [] (talk_none p) N) as (q & l & H & T). exists q, l. now split. Qed.
Print Assumptions C105_system.
(** So the bounds hold for it, e.g. that of add: a process that adds has sent at most two commands. *)
Theorem C105_processes : forall n d d' ps qs a c w, many sys_step (d, ps) (d', qs) -> nth_error ps n = Some (issued a c w) -> simple_call c ->
  exists q l, nth_error qs n = Some q /\ talk (issued a c w) l q /\ length l <= most c.
Proof.
  intros n d d' ps qs a c w R N S. destruct (C105_system _ n _ _ _ _ _ R N) as (q & l & H & T). exists q, l. split; [exact H|]. split; [exact T|]. now apply (call_cost a c w l q).
Qed.
Print Assumptions C105_processes.

Fixpoint logged {A} (n : nat) (d : dict obj) (p : cprog A) : list wire * cprog A :=
  match n with
  | 0 => ([], p)
  | S n' =>
    match p with
    | Done x => ([], p)
    | CGet k f => let '(l, q) := logged n' d (f (dget d k)) in (WGet k (dget d k) :: l, q)
    | CSet k o p' => let '(l, q) := logged n' (dset d k o) p' in (WSet k o :: l, q)
    | CExists k f => let '(l, q) := logged n' d (f (dmem d k)) in (WExists k (dmem d k) :: l, q)
    | CDelete k p' => let '(l, q) := logged n' (ddel d k) p' in (WDelete k :: l, q)
    | CScan pat f => let ks := filter (glob pat) (dkeys d) in let '(l, q) := logged n' d (f ks) in (WScan pat ks :: l, q)
    end
  end.
Lemma logged_talk {A} n : forall d (p : cprog A), talk p (fst (logged n d p)) (snd (logged n d p)).
Proof.
  induction n as [|n IH]; intros d p; [constructor|]. destruct p as [x|k f|k o p|k f|k p|pat f]; cbn [logged]; [constructor|..].
  1: pose proof (IH d (f (dget d k))) as T. 2: pose proof (IH (dset d k o) p) as T. 3: pose proof (IH d (f (dmem d k))) as T.
  4: pose proof (IH (ddel d k) p) as T. 5: pose proof (IH d (f (filter (glob pat) (dkeys d)))) as T.
  all: destruct (logged n _ _) as [l q]; cbn [fst snd] in *; now constructor.
Qed.
Definition word (m : wire) : string :=
  match m with WGet k _ => "GET " ++ k | WSet k _ => "SET " ++ k | WExists k _ => "EXISTS " ++ k | WDelete k => "DELETE " ++ k | WScan k _ => "SCAN " ++ k end.
Definition log_of (d : dict obj) (a : aid) (c : call) (w : world) : list wire := fst (logged 100 d (issued a c w)).
Definition is_done (d : dict obj) (a : aid) (c : call) (w : world) : bool := negb (running (snd (logged 100 d (issued a c w)))).
(** both adapters on the server; the destination has the site nyc with two devices, the source has nothing *)
Definition w_pay : world := mkWorld [mk_site "nyc" "east" ["r1"; "r2"] 0 1] [mk_ad "src" (SRedis "blue"); mk_ad "dst" (SRedis "green")] [] [].
Definition d_pay (fl : N) : dict obj :=
  [("diffsync:green:site:nyc", mk_site "nyc" "east" ["r1"; "r2"] fl 1); ("diffsync:green:device:r1", mk_device "r1" "edge" [] 0 1);
   ("diffsync:green:device:r2", mk_device "r2" "edge" [] 0 1)].
Definition x_pay (fl : N) : diff := match snd (diff_from 20 1 0 base_class 0 false (set_redis w_pay (d_pay fl))) with Ok d => d | Err _ => empty_diff base_class end.
Definition c_pay (fl : N) : call := KSync 20 default_hooks 0 base_class 0 false (Some (x_pay fl)).
(** The bounds are reached: 15 commands for 3 elements (the source is asked first, then the destination; the SCAN is the
    count of the store that remove logs); 11 for a removal with 2 children; 3 for update_or_add of an object that is not there. *)
Example C105_example :
  to_redis 1 w_pay /\ diff_len (x_pay 0) = 3 /\ is_done (d_pay 0) 1 (c_pay 0) w_pay = true /\
  map word (log_of (d_pay 0) 1 (c_pay 0) w_pay) =
    ["GET diffsync:blue:site:nyc"; "GET diffsync:green:site:nyc"; "EXISTS diffsync:green:site:nyc"; "DELETE diffsync:green:site:nyc"; "SCAN diffsync:green:*";
     "GET diffsync:blue:device:r1"; "GET diffsync:green:device:r1"; "EXISTS diffsync:green:device:r1"; "DELETE diffsync:green:device:r1"; "SCAN diffsync:green:*";
     "GET diffsync:blue:device:r2"; "GET diffsync:green:device:r2"; "EXISTS diffsync:green:device:r2"; "DELETE diffsync:green:device:r2"; "SCAN diffsync:green:*"] /\
  length (log_of (d_pay 0) 1 (KRemove 20 0 true) w_pay) = 3 + 4 * 2 /\ children_read (log_of (d_pay 0) 1 (KRemove 20 0 true) w_pay) = 0 /\
  map word (log_of [] 1 (KUpdateOrAdd 0) w_pay) = ["GET diffsync:green:site:nyc"; "GET diffsync:green:site:nyc"; "SET diffsync:green:site:nyc"] /\
  map word (log_of (d_pay 0) 1 (KGetAll (MName "device")) w_pay) = ["SCAN diffsync:green:device:*"; "GET diffsync:green:device:r1"; "GET diffsync:green:device:r2"].
Proof.
  split; [eexists _, "green"%string; split; reflexivity|]. split; [vm_compute; reflexivity|]. split; [vm_compute; reflexivity|].
  split; [vm_compute; reflexivity|]. split; [vm_compute; reflexivity|]. split; [vm_compute; reflexivity|]. split; vm_compute; reflexivity.
Qed.

(** Not without the condition on the flags: an object with SKIP_CHILDREN_ON_DELETE takes its children with it, and they
    need not be in the diff. *)
Definition x_alone : diff := mkDiff base_class [("site", [("nyc", mkElem "site" "nyc" [("name", VStr "nyc")] "src" "dst" None (Some [("region", VStr "east")]) [])])] 0.
Theorem C105_cascade_refuted : exists fuel h dst src dc flags cb d w l q, to_redis dst w /\ diff_len d <> 0 /\
  talk (issued dst (KSync fuel h src dc flags cb (Some d)) w) l q /\ ~ length l <= 5 * diff_len d.
Proof.
  exists 20, default_hooks, 1, 0, base_class, 0%N, false, x_alone, w_pay.
  exists (fst (logged 100 (d_pay 2) (issued 1 (KSync 20 default_hooks 0 base_class 0 false (Some x_alone)) w_pay))).
  exists (snd (logged 100 (d_pay 2) (issued 1 (KSync 20 default_hooks 0 base_class 0 false (Some x_alone)) w_pay))).
  split; [eexists _, "green"%string; split; reflexivity|]. split; [vm_compute; discriminate|]. split; [apply logged_talk|]. apply Nat.nle_gt, Nat.ltb_lt. vm_compute. reflexivity.
Qed.
Print Assumptions C105_cascade_refuted.
Lemma plain_log : read_plainly (fst (logged 100 (d_pay 0) (issued 1 (c_pay 0) w_pay))).
Proof.
  assert (B : forallb (fun m => match m with WGet _ (Some o) => negb (N.testbit (o_flags o) 1) && negb (N.testbit (o_flags o) 4) | _ => true end)
    (fst (logged 100 (d_pay 0) (issued 1 (c_pay 0) w_pay))) = true) by (vm_compute; reflexivity).
  intros k o I. apply (proj1 (forallb_forall _ _) B) in I. clear B. cbn beta iota in I. apply andb_true_iff in I as [B1 B2]. split; [now destruct (N.testbit (o_flags o) 1)|now destruct (N.testbit (o_flags o) 4)].
Qed.
(** Nor are two commands always enough for update_or_add, nor four for an element of a diff. *)
Theorem C105_fewer_refuted : ~ (forall a r w l q, talk (issued a (KUpdateOrAdd r) w) l q -> length l <= 2) /\
  ~ (forall fuel h dst src dc flags cb d w l q, to_redis dst w -> diff_len d <> 0 -> read_plainly l ->
      talk (issued dst (KSync fuel h src dc flags cb (Some d)) w) l q -> length l <= 4 * diff_len d).
Proof.
  split; intros H.
  - specialize (H 1 0 w_pay _ _ (logged_talk 100 [] (issued 1 (KUpdateOrAdd 0) w_pay))). apply Nat.leb_le in H. vm_compute in H. discriminate H.
  - specialize (H 20 default_hooks 1 0 base_class 0%N false (x_pay 0) w_pay _ _ (ex_intro _ _ (ex_intro _ "green"%string (conj eq_refl eq_refl)))
      ltac:(vm_compute; discriminate) plain_log (logged_talk 100 (d_pay 0) (issued 1 (c_pay 0) w_pay))).
    apply Nat.leb_le in H. vm_compute in H. discriminate H.
Qed.
Print Assumptions C105_fewer_refuted.
