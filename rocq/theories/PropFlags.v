(** * PropFlags: synchronising with any flags on the call and on the objects (C80).

    [left_out], [swept], [ruled] and [wired] are defined in FlagSpec.v, [alike] and [comparable] in ConvergeSpec.v. *)
From Verif Require Import FlagFacts PropCopy.

(** C80.  The destination ends with the objects of the source that are not passed over, with the
    source's values, and with its own that are passed over, as before; only what is below an object that is deleted
    with all its children is removed although it is passed over. *)
Theorem C80_flags : forall fuel h dst src dc flags cb w sa da,
  alike w fuel src dst sa da -> comparable w fuel src dst sa da -> hooks_succeed h -> spares_attributes da h -> yields_once (dc_order dc) ->
  wired w src dst sa da ->
  exists w' d, sync_from fuel h dst src dc flags cb None w = (w', Ok d) /\ ruled flags w src dst w'.
Proof.
  intros fuel h dst src dc flags cb w sa da AL CM HK SP YO WI. destruct (sync_ruled fuel h dst src dc flags cb w sa da AL CM HK SP YO WI) as (w' & d & E & R & _). eauto.
Qed.
Print Assumptions C80_flags.

(** In particular an object with IGNORE is not added, and if it or its counterpart has IGNORE the
    destination's object stays as it is, unless it is below one that is deleted with all its children. *)
Theorem C80_ignored : forall fuel h dst src dc flags cb w sa da,
  alike w fuel src dst sa da -> comparable w fuel src dst sa da -> hooks_succeed h -> spares_attributes da h -> yields_once (dc_order dc) ->
  wired w src dst sa da ->
  let w' := fst (sync_from fuel h dst src dc flags cb None w) in
  (forall s k, read w src s -> is_key s k -> N.testbit (o_flags s) 0 = true -> there w' dst k -> there w dst k) /\
  (forall z k, read w dst z -> is_key z k ->
     N.testbit (o_flags z) 0 = true \/ (exists s, read w src s /\ is_key s k /\ N.testbit (o_flags s) 0 = true) ->
     ~ swept flags w src dst k -> exists o, read w' dst o /\ is_key o k /\ same_data z o).
Proof.
  intros fuel h dst src dc flags cb w sa da AL CM HK SP YO WI. destruct (sync_ruled fuel h dst src dc flags cb w sa da AL CM HK SP YO WI) as (w' & d & E & [RK _ RR] & IS & ID).
  rewrite E. cbn [fst]. split.
  - intros s k R K F T. apply RK in T as [(_ & N)|(T & _)]; [elim N; exact (IS s k R K F)|exact T].
  - intros z k R K F N. assert (L : left_out flags w src dst k) by (destruct F as [F|(s & RS & KS & F)]; [exact (ID z k R K F)|exact (IS s k RS KS F)]).
    destruct (proj2 (RK k)) as (o & RO & KO); [right; split; [exists z; auto|auto]|]. exists o. split; [exact RO|]. split; [exact KO|]. exact (RR z o k R K L RO KO).
Qed.
Print Assumptions C80_ignored.

(** Source: r2, with an interface, has SKIP_UNMATCHED_SRC.  Destination: r1 has IGNORE, r3 has
    SKIP_UNMATCHED_DST, lon has the flags [fl], r4 below it has IGNORE. *)
Definition src80 : dict (dict ref) := [("site", [("nyc", 0)]); ("device", [("r1", 1); ("r2", 2); ("r5", 3)]); ("interface", [("r1__eth0", 4); ("r2__eth0", 5)])]%string.
Definition dst80 : dict (dict ref) := [("site", [("nyc", 6); ("lon", 7)]); ("device", [("r1", 8); ("r3", 9); ("r5", 10); ("r4", 11)]); ("interface", [("r1__eth0", 12); ("r4__eth0", 13)])]%string.
Definition w80 (fl : N) : world :=
  mkWorld [mk_site "nyc" "east" ["r1"; "r2"; "r5"] 0 0; mk_device "r1" "edge" ["r1__eth0"] 0 0; mk_device "r2" "core" ["r2__eth0"] 4 0; mk_device "r5" "spine" [] 0 0;
           mk_intf "r1" "eth0" 9000 0 0; mk_intf "r2" "eth0" 1500 0 0;
           mk_site "nyc" "west" ["r1"; "r3"; "r5"] 0 1; mk_site "lon" "uk" ["r4"] fl 1; mk_device "r1" "leaf" ["r1__eth0"] 1 1; mk_device "r3" "leaf" [] 8 1; mk_device "r5" "leaf" [] 0 1;
           mk_device "r4" "leaf" ["r4__eth0"] 1 1; mk_intf "r1" "eth0" 1500 0 1; mk_intf "r4" "eth0" 1500 0 1]
    [mk_ad "src" (SLocal src80); mk_ad "dst" (SLocal dst80)]%string [] [].
Definition sa80 : adapter := mk_ad "src" (SLocal src80).
Definition da80 : adapter := mk_ad "dst" (SLocal dst80).
Definition end80 (fl : N) : world := fst (sync_from 20 default_hooks 1 0 base_class 0 false None (w80 fl)).
Definition vals80 (w : world) (t u f : string) : option val :=
  match lookup w 1 t u with Some r => match nth_error (w_heap w) r with Some o => dget (o_vals o) f | None => None end | None => None end.
Lemma wiredb_ok n w src dst sa da : w_ok w -> local_ok w src -> keyed w src -> local_ok w dst ->
  forallb (fun t => smem t (ad_top da)) (ad_top sa) && forallb (fun t => smem t (ad_top sa)) (ad_top da) &&
  forallb (fun ko => rootedb n w src (ad_top sa) (fst ko)) (stored_objs w src) && attrsb w dst = true -> wired w src dst sa da.
Proof.
  intros OK LS KS LD H. rewrite !andb_true_iff in H. destruct H as [[[H4 H5] H6] H7]. constructor.
  - rewrite forallb_forall in H4, H5. intros t. split; intros I; apply smem_In; auto.
  - rewrite forallb_forall in H6. intros o k R K. eapply rootedb_ok; eauto. apply (H6 (k, o)). apply (read_iff w src LS KS). auto.
  - now apply attrsb_ok.
Qed.
Lemma w80_ok fl : fl = 0%N \/ fl = 2%N -> alike (w80 fl) 20 0 1 sa80 da80 /\ comparable (w80 fl) 20 0 1 sa80 da80 /\ wired (w80 fl) 0 1 sa80 da80.
Proof.
  intros F. assert (A : alike (w80 fl) 20 0 1 sa80 da80) by (destruct F as [->| ->]; apply (alikeb_ok _ _ _ _ _ _ rank); vm_compute; reflexivity).
  split; [exact A|]. split; [destruct F as [->| ->]; apply (comparableb_ok _ _ _ _ _ _ rank); vm_compute; reflexivity|].
  destruct F as [->| ->]; (apply (wiredb_ok 5); [exact (al_refs _ _ _ _ _ _ A)|apply localb_ok; vm_compute; reflexivity|apply keyedb_ok; vm_compute; reflexivity|exact (al_local _ _ _ _ _ _ A)|vm_compute; reflexivity]).
Qed.
Definition keys80 (w : world) : list (string * string) := map fst (stored_objs w 1).
Example C80_example :
  alike (w80 2) 20 0 1 sa80 da80 /\ comparable (w80 2) 20 0 1 sa80 da80 /\ wired (w80 2) 0 1 sa80 da80 /\
  alike (w80 0) 20 0 1 sa80 da80 /\ comparable (w80 0) 20 0 1 sa80 da80 /\ wired (w80 0) 0 1 sa80 da80 /\
  keys80 (end80 2) = [("site", "nyc"); ("device", "r1"); ("device", "r3"); ("device", "r5"); ("interface", "r1__eth0")]%string /\
  keys80 (end80 0) = [("site", "nyc"); ("device", "r1"); ("device", "r3"); ("device", "r5"); ("device", "r4"); ("interface", "r1__eth0"); ("interface", "r4__eth0")]%string /\
  vals80 (end80 2) "site" "nyc" "region" = Some (VStr "east") /\ vals80 (end80 2) "device" "r1" "role" = Some (VStr "leaf") /\
  vals80 (end80 2) "device" "r5" "role" = Some (VStr "spine") /\ vals80 (end80 2) "interface" "r1__eth0" "mtu" = Some (VInt 1500).
Proof.
  destruct (w80_ok 2) as (A & B & C); [now right|]. destruct (w80_ok 0) as (A' & B' & C'); [now left|].
  do 6 (split; [assumption|]). vm_compute. repeat split.
Qed.

(** It is not true that IGNORE keeps an object: below an object that is deleted with
    SKIP_CHILDREN_ON_DELETE it is removed. *)
Theorem C80_ignore_refuted : exists w sa da z k d w',
  alike w 20 0 1 sa da /\ comparable w 20 0 1 sa da /\ wired w 0 1 sa da /\ read w 1 z /\ is_key z k /\ N.testbit (o_flags z) 0 = true /\
  sync_from 20 default_hooks 1 0 base_class 0 false None w = (w', Ok d) /\ ~ there w' 1 k.
Proof.
  destruct (w80_ok 2) as (A & B & C); [now right|].
  destruct (C80_flags 20 default_hooks 1 0 base_class 0 false (w80 2) sa80 da80 A B default_succeed) as (w' & d & E & _); [exact (default_spares _)|exact order_default_once|exact C|].
  exists (w80 2), sa80, da80, (mk_device "r4" "leaf" ["r4__eth0"%string] 1 1), ("device", "r4")%string, d, w'.
  split; [exact A|]. split; [exact B|]. split; [exact C|].
  assert (X : read (w80 2) 1 (mk_device "r4" "leaf" ["r4__eth0"%string] 1 1) /\ is_key (mk_device "r4" "leaf" ["r4__eth0"%string] 1 1) ("device", "r4")%string).
  { refine (proj2 (read_iff (w80 2) 1 (al_local _ _ _ _ _ _ A) (al_keyed _ _ _ _ _ _ A) ("device", "r4")%string _) (proj2 (stored_iff (w80 2) 1 (al_local _ _ _ _ _ _ A) ("device", "r4")%string _) (ex_intro _ 11 (conj _ _)))); reflexivity. }
  destruct X as (X1 & X2). split; [exact X1|]. split; [exact X2|]. split; [reflexivity|]. split; [exact E|].
  assert (EW : w' = end80 2) by (unfold end80; now rewrite E). subst w'.
  assert (LM : local_ok (end80 2) 1) by (apply localb_ok; vm_compute; reflexivity). assert (KM : keyed (end80 2) 1) by (apply keyedb_ok; vm_compute; reflexivity).
  intros T. apply (proj2 (stored_there (end80 2) 1 LM KM ("device", "r4")%string) T). vm_compute. reflexivity.
Qed.
Print Assumptions C80_ignore_refuted.
