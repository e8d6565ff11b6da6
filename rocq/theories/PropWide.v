(** * PropWide: C91, synchronisation with user code that may do anything.

    The hooks create, update and delete, the progress callback and sync_complete are any programs on the world (WideDefs):
    they may change and remove any object, use any adapter and raise anything. *)
From Verif Require Import WideLog WideKeep SyncFacts SyncFrom CourseFrom SyncSample.
From Coq Require Import Lia.

(** With the user code of SyncerDefs this is the syncer of SyncerDefs, as long as the diff has at most [limit] levels. *)
Theorem C91_plain : forall fuel limit h dst src dc flags cb given w,
  (forall d, uses fuel dst src dc flags cb given w d -> no_deeper limit (d_groups d)) ->
  let r := wide_sync fuel limit (user_of src dst h cb) dst src dc flags given w in
  sync_from fuel h dst src dc flags cb given w = (fst (fst r), snd r).
Proof. exact wide_same. Qed.
Print Assumptions C91_plain.

Lemma wide_log fuel limit U dst src dc flags given w w' l r :
  (forall d, given = Some d -> deletes_whole (d_groups d)) -> wide_sync fuel limit U dst src dc flags given w = (w', l, r) ->
  (l = [] /\ exists x, r = Err x) \/
  exists d l0 k z, uses fuel dst src dc flags (u_cb U) given w d /\ l = l0 ++ z /\ (forall u, In u l0 -> ue_call u <> UComplete) /\
    visits (dc_order (d_class d)) dst (ordered (dc_order (d_class d)) (fun x => x) (d_groups d)) (hook_log l0) /\
    numbers l0 = (if u_cb U then map (fun i => (i, diff_len d)) (seq 1 k) else []) /\ k <= diff_len d /\
    orderly flags l r /\
    (z = [] /\ ((exists x, r = Err x) \/ r = Ok d /\ hook_log l0 = []) \/
     exists u, z = [u] /\ ue_call u = UComplete /\ Forall (forgiven flags) l0 /\ (hook_log l0 <> [] \/ N.testbit flags 0 = true) /\ r = match ue_result u with Ok _ => Ok d | Err x => Err x end).
Proof.
  intros HW E. destruct (wide_split _ _ _ _ _ _ _ _ _ _ _ _ E) as [(_ & -> & X & _)|(d & wd & s' & US & _ & R & _ & -> & _)]; [now left|]. right.
  assert (DW : deletes_whole (d_groups d)) by (destruct US as [(-> & _)|(_ & C)]; [now apply HW|eapply computed_whole; eauto]).
  destruct (run_log _ _ _ _ _ _ _ DW R) as (l0 & k & z & L & A & V & N & K & O & Z). cbn [sv_dst sv_flags sv_total] in *. exists d, l0, k, z. rewrite <- L in O. auto 10.
Qed.

(** Whatever user code does, the hooks are called in the order of the diff, each for an element that asks for it, with the
    element's identifiers and values; for each element at most once, and below it only if its own call was made or it asks for none. *)
Theorem C91_calls : forall fuel limit U dst src dc flags given w w' l r,
  (forall d, given = Some d -> deletes_whole (d_groups d)) -> wide_sync fuel limit U dst src dc flags given w = (w', l, r) ->
  hook_log l = [] \/ exists d, uses fuel dst src dc flags (u_cb U) given w d /\
    visits (dc_order (d_class d)) dst (ordered (dc_order (d_class d)) (fun x => x) (d_groups d)) (hook_log l).
Proof.
  intros fuel limit U dst src dc flags given w w' l r HW E. destruct (wide_log _ _ _ _ _ _ _ _ _ _ _ _ HW E) as [(-> & _)|(d & l0 & k & z & US & -> & _ & V & _ & _ & _ & Z)]; [now left|]. right.
  exists d. split; [exact US|]. rewrite hook_log_app. destruct Z as [(-> & _)|(u & -> & C & _)]; [now rewrite app_nil_r|]. cbn. rewrite C. now rewrite app_nil_r.
Qed.
Print Assumptions C91_calls.

(** The callback is given the numbers from 1 on, one after the other, and the size of the diff, which they do not exceed. *)
Theorem C91_progress : forall fuel limit U dst src dc flags given w w' l r,
  (forall d, given = Some d -> deletes_whole (d_groups d)) -> wide_sync fuel limit U dst src dc flags given w = (w', l, r) ->
  numbers l = [] \/ exists d k, uses fuel dst src dc flags (u_cb U) given w d /\ u_cb U = true /\ k <= diff_len d /\ numbers l = map (fun i => (i, diff_len d)) (seq 1 k).
Proof.
  intros fuel limit U dst src dc flags given w w' l r HW E. destruct (wide_log _ _ _ _ _ _ _ _ _ _ _ _ HW E) as [(-> & _)|(d & l0 & k & z & US & -> & _ & _ & N & K & _ & Z)]; [now left|].
  assert (NZ : numbers z = []) by (destruct Z as [(-> & _)|(u & -> & C & _)]; [reflexivity|]; cbn; now rewrite C). rewrite numbers_app, NZ, app_nil_r.
  destruct (u_cb U) eqn:CB; [|now left]. right. exists d, k. auto.
Qed.
Print Assumptions C91_progress.

(** No call follows one that raised, and the exception is the result, except that an ObjectCrudException of a hook is passed over
    if CONTINUE_ON_FAILURE is set. *)
Theorem C91_exceptions : forall fuel limit U dst src dc flags given w w' l r,
  (forall d, given = Some d -> deletes_whole (d_groups d)) -> wide_sync fuel limit U dst src dc flags given w = (w', l, r) ->
  orderly flags l r.
Proof.
  intros fuel limit U dst src dc flags given w w' l r HW E. destruct (wide_log _ _ _ _ _ _ _ _ _ _ _ _ HW E) as [(-> & _)|(d & l0 & k & z & _ & _ & _ & _ & _ & _ & O & _)]; [now left|exact O].
Qed.
Print Assumptions C91_exceptions.

(** sync_complete is called at most once, after everything else.  It is called if a hook was called and the synchronisation did not
    fail before; and if it is called, then some hook was, or CONTINUE_ON_FAILURE is set. *)
Theorem C91_complete : forall fuel limit U dst src dc flags given w w' l r,
  (forall d, given = Some d -> deletes_whole (d_groups d)) -> wide_sync fuel limit U dst src dc flags given w = (w', l, r) ->
  (forall u, In u l -> ue_call u = UComplete -> exists l0, l = l0 ++ [u] /\ (forall v, In v l0 -> ue_call v <> UComplete) /\
     (hook_log l <> [] \/ N.testbit flags 0 = true)) /\
  (forall d, r = Ok d -> hook_log l <> [] -> exists u, In u l /\ ue_call u = UComplete).
Proof.
  intros fuel limit U dst src dc flags given w w' l r HW E. destruct (wide_log _ _ _ _ _ _ _ _ _ _ _ _ HW E) as [(-> & x & ->)|(d & l0 & k & z & US & -> & A & _ & _ & _ & _ & Z)]; [split; [intros u []|discriminate]|].
  destruct Z as [(-> & Z)|(u & -> & C & F & H & R)].
  - rewrite app_nil_r. split; [intros u I C; destruct (A u I C)|]. intros d' -> NE. destruct Z as [(x & X)|(_ & X)]; [discriminate|contradiction].
  - split.
    + intros v I CV. apply in_app_iff in I as [I|[<-|[]]]; [destruct (A v I CV)|]. exists l0. split; [reflexivity|]. split; [exact A|]. destruct H as [H|H]; [|now right]. left. rewrite hook_log_app. intros X. apply app_eq_nil in X. tauto.
    + intros d' _ _. exists u. split; [apply in_app_iff; right; now left|exact C].
Qed.
Print Assumptions C91_complete.

(** If user code keeps to the destination, so does the synchronisation: the other adapters keep what they had. *)
Theorem C91_others : forall fuel limit U dst src dc flags given w,
  keeps_to_dst w dst U -> let w' := fst (fst (wide_sync fuel limit U dst src dc flags given w)) in
  only_dst w dst w' /\ forall a, a <> dst -> w_ok w -> share_nothing w a dst -> intact w w' a.
Proof. intros fuel limit U dst src dc flags given w HU. cbv zeta. split; [now apply wide_keeps|]. intros a NE OK SH. now apply wide_intact. Qed.
Print Assumptions C91_others.

(** *** examples *)
Definition u_plain : user := user_of 0 1 default_hooks true.
(** the update hook of device r1 removes device r3, with its interface, from the destination *)
Definition u_busy : user :=
  mkUser (fun c => match c with UUpdate 7 _ _ => st_remove 20 1 8 true ;;; u_code u_plain c | _ => u_code u_plain c end) true.
(** the callback raises at the third element *)
Definition u_nervous : user :=
  mkUser (fun c => match c with UProgress 3 _ => raise ExnValueError | _ => u_code u_plain c end) true.
Definition told (c : ucall) : string * list val :=
  match c with
  | UCreate k ids _ => ("create", map snd ids)
  | UUpdate _ ids _ => ("update", map snd ids)
  | UDelete _ ids => ("delete", map snd ids)
  | UProgress n _ => ("progress", [VInt (Z.of_nat n)])
  | UComplete => ("complete", [])
  end.
Definition calls_told (x : world * list uentry * result diff) : list (string * list val) := map (fun u => told (ue_call u)) (snd (fst x)).
Definition failed_with {A} (r : result A) : option exn := match r with Ok _ => None | Err x => Some x end.

Example C91_plain_ex :
  no_deeper 3 (d_groups d0) /\ failed_with (snd (wide_sync 20 3 u_plain 1 0 base_class 0 None w0)) = None /\
  failed_with (snd (wide_sync 20 2 u_plain 1 0 base_class 0 None w0)) = Some ExnRecursionError.
Proof.
  split; [|split; vm_compute; reflexivity].
  assert (G : forall n gs, forallb (fun g : string * dict elem => forallb (fun kx : string * elem => (fix lv (m : nat) (x : elem) {struct m} : bool :=
      match m with O => forallb (fun g : string * dict elem => match snd g with [] => true | _ => false end) (e_kids x) | S m' => forallb (fun g : string * dict elem => forallb (fun kx : string * elem => lv m' (snd kx)) (snd g)) (e_kids x) end) n (snd kx)) (snd g)) gs = true -> no_deeper (S n) gs).
  { induction n as [|n IH]; intros gs H t g k x I1 I2; rewrite forallb_forall in H; specialize (H _ I1); cbn [snd] in H; rewrite forallb_forall in H; specialize (H _ I2); cbn [snd] in H.
    - intros t' g' I. rewrite forallb_forall in H. specialize (H _ I). cbn in H. now destruct g'.
    - apply IH. exact H. }
  apply G. vm_compute. reflexivity.
Qed.
(** Device r3 is gone when its deletion comes up: that fails, or, with CONTINUE_ON_FAILURE, is passed over along with its interface. *)
Example C91_calls_ex :
  calls_told (wide_sync 20 20 u_busy 1 0 base_class 0 None w0) =
    [("progress", [VInt 1]); ("update", [VStr "r1"]); ("progress", [VInt 2]); ("update", [VStr "r1"; VStr "eth0"]); ("progress", [VInt 3]);
     ("create", [VStr "r1"; VStr "eth1"]); ("progress", [VInt 4]); ("delete", [VStr "r1"; VStr "lo"]); ("progress", [VInt 5]);
     ("create", [VStr "r2"]); ("progress", [VInt 6])] /\
  failed_with (snd (wide_sync 20 20 u_busy 1 0 base_class 0 None w0)) = Some ObjectNotDeleted /\
  calls_told (wide_sync 20 20 u_busy 1 0 base_class 1 None w0) =
    [("progress", [VInt 1]); ("update", [VStr "r1"]); ("progress", [VInt 2]); ("update", [VStr "r1"; VStr "eth0"]); ("progress", [VInt 3]);
     ("create", [VStr "r1"; VStr "eth1"]); ("progress", [VInt 4]); ("delete", [VStr "r1"; VStr "lo"]); ("progress", [VInt 5]);
     ("create", [VStr "r2"]); ("progress", [VInt 6]); ("create", [VStr "sfo"]); ("progress", [VInt 7]); ("delete", [VStr "lon"]); ("progress", [VInt 8]);
     ("complete", [])] /\
  failed_with (snd (wide_sync 20 20 u_busy 1 0 base_class 1 None w0)) = None.
Proof. repeat split; vm_compute; reflexivity. Qed.
(** The callback's exception is not an ObjectCrudException of a hook: CONTINUE_ON_FAILURE does not help. *)
Example C91_exceptions_ex :
  calls_told (wide_sync 20 20 u_nervous 1 0 base_class 1 None w0) =
    [("progress", [VInt 1]); ("update", [VStr "r1"]); ("progress", [VInt 2]); ("update", [VStr "r1"; VStr "eth0"]); ("progress", [VInt 3])] /\
  failed_with (snd (wide_sync 20 20 u_nervous 1 0 base_class 1 None w0)) = Some ExnValueError.
Proof. split; vm_compute; reflexivity. Qed.
Lemma plain_keeps src dst h cb w : keeps_to_dst w dst (user_of src dst h cb).
Proof.
  intros c w1 HO HR. apply only_apart in HO.
  assert (K : kp w dst (u_code (user_of src dst h cb) c) (mine_opt w dst)).
  { destruct c; cbn [user_of u_code].
    - apply (kp_create w dst).
    - apply (kp_update w dst). apply HR. now left.
    - apply (kp_delete w dst). apply HR. now left.
    - eapply kp_bind; [apply kp_emit|]. intros _ _. apply kp_ret, mine_none.
    - eapply kp_bind; [apply kp_emit|]. intros _ _. apply kp_ret, mine_none. }
  destruct (K w1 HO) as (K1 & K2). split; [now apply only_apart|]. intros r E. exact (K2 _ E r eq_refl).
Qed.
Example C91_others_ex : keeps_to_dst w0 1 u_busy /\ w_ok w0 /\ share_nothing w0 0 1 /\
  lookup (fst (fst (wide_sync 20 20 u_busy 1 0 base_class 1 None w0))) 1 "device" "r3" = None.
Proof.
  split; [|split; [|split; [|vm_compute; reflexivity]]].
  - assert (M8 : mine w0 1 8) by (right; exists (mk_ad "dst" (SLocal dst_data)), dst_data, "device", "r3"; split; [now split|]; cbn; auto).
    intros c w1 HO HR. pose proof (plain_keeps 0 1 default_hooks true w0) as PK.
    destruct c as [k ids at_|r ids at_|r ids|n t|]; try exact (PK _ w1 HO HR).
    do 7 (destruct r as [|r]; [exact (PK _ w1 HO HR)|]). destruct r as [|r]; [|exact (PK _ w1 HO HR)]. cbn [u_busy u_code].
    assert (K : kp w0 1 (st_remove 20 1 8 true ;;; u_code u_plain (UUpdate 7 ids at_)) (mine_opt w0 1)).
    { eapply kp_bind; [apply kp_remove; exact M8|]. intros _ _ w2 HA. destruct (PK (UUpdate 7 ids at_) w2 (proj2 (only_apart _ _ _) HA) HR) as (K1 & K2). split; [now apply only_apart|]. intros a E r ->. now apply K2. }
    apply only_apart in HO. destruct (K w1 HO) as (K1 & K2). split; [now apply only_apart|]. intros r E. exact (K2 _ E r eq_refl).
  - apply w0_ok.
  - apply w0_share.
Qed.

(** For a diff that a program built itself the order of the calls may be lost: with NATURAL_DELETION_ORDER the children come first and leave
    their action behind, so below an element to delete there must be deletions only.  Here site lon is updated instead of deleted. *)
Definition w_odd : world := mkWorld (heap0 ++ [mk_site "lon" "uk" [] 16 1]) [mk_ad "src" (SLocal src_data); mk_ad "dst" (SLocal [("site", [("nyc", 6); ("lon", 13)]); ("device", [("r1", 7)])])] [] [].
Definition e_odd : elem :=
  mkElem "site" "lon" [("name", VStr "lon")] "src" "dst" None (Some [("region", VStr "uk"); ("note", VNone)])
    [("device", [("r1", mkElem "device" "r1" [("name", VStr "r1")] "src" "dst" (Some [("role", VStr "edge")]) (Some [("role", VStr "leaf")]) [])])].
Definition d_odd : diff := mkDiff base_class [("site", [("lon", e_odd)])] 0.
Theorem C91_given_refuted : exists w d e, d_groups d = [("site", [("lon", e)])] /\ e_action e = Some ADelete /\
  calls_told (wide_sync 20 20 u_plain 1 0 base_class 0 (Some d) w) =
    [("update", [VStr "r1"]); ("progress", [VInt 1]); ("update", [VStr "lon"]); ("progress", [VInt 2]); ("update", [VStr "r1"]); ("progress", [VInt 3]); ("complete", [])].
Proof. exists w_odd, d_odd, e_odd. split; [reflexivity|]. split; vm_compute; reflexivity. Qed.
Print Assumptions C91_given_refuted.
