(** * PropSkip: synchronising with SKIP_UNMATCHED_SRC and SKIP_UNMATCHED_DST (C78).

    [selected] and [merged] are defined in SkipSpec.v, [alike] and [comparable] in ConvergeSpec.v, [entire] (here without
    flags: no object has some, the top-level types agree, nothing in the source is unreachable) in CopySpec.v. *)
From Verif Require Import SkipFacts PropCopy.

(** C78.  The destination ends with the objects that the flags select, with the source's values where the
    source has them, with the selected children, and otherwise as before. *)
Theorem C78_merge : forall fuel h dst src dc flags cb w sa da,
  alike w fuel src dst sa da -> comparable w fuel src dst sa da -> hooks_succeed h -> spares_attributes da h -> yields_once (dc_order dc) ->
  entire w 0 src dst sa da ->
  exists w' d, sync_from fuel h dst src dc flags cb None w = (w', Ok d) /\ merged flags w src dst w'.
Proof. exact sync_merges. Qed.
Print Assumptions C78_merge.

(** In particular nothing is removed with SKIP_UNMATCHED_DST, and nothing is added with SKIP_UNMATCHED_SRC. *)
Theorem C78_keys : forall fuel h dst src dc flags cb w sa da,
  alike w fuel src dst sa da -> comparable w fuel src dst sa da -> hooks_succeed h -> spares_attributes da h -> yields_once (dc_order dc) ->
  entire w 0 src dst sa da ->
  let w' := fst (sync_from fuel h dst src dc flags cb None w) in
  (N.testbit flags 2 = true -> forall k, there w dst k -> there w' dst k) /\
  (N.testbit flags 1 = true -> forall k, there w' dst k -> there w dst k) /\
  (N.testbit flags 1 = false -> forall k, there w src k -> there w' dst k) /\
  (N.testbit flags 2 = false -> forall k, there w' dst k -> there w src k).
Proof.
  intros fuel h dst src dc flags cb w sa da AL CM HK SP YO EN. destruct (sync_merged fuel h dst src dc flags cb w sa da AL CM HK SP YO EN) as (w' & d & E & [MK _ _] & (LO & KY & _) & _). rewrite E. cbn [fst].
  assert (DS : forall k, there w dst k \/ ~ there w dst k).
  { intros k. rewrite <- (stored_there w dst (al_local _ _ _ _ _ _ AL) (al_keyed _ _ _ _ _ _ AL) k). destruct (look w dst k); [left; discriminate|right; congruence]. }
  split; [|split; [|split]]; intros F k T.
  - assert (DT : ~ ~ there w' dst k).
    { intros N. assert (NS : ~ there w src k) by (intros TS; apply N, MK; left; auto). apply N, MK. right. right. auto. }
    apply (stored_there w' dst LO KY k). intros L. apply DT. intros T'. now apply (stored_there w' dst LO KY k) in T'.
  - apply MK in T as [(_ & T)|[(_ & _ & F')|(_ & T & _)]]; [exact T|congruence|exact T].
  - apply MK. destruct (DS k); [left; auto|right; left; auto].
  - apply MK in T as [(T & _)|[(T & _)|(_ & _ & F')]]; [exact T|exact T|congruence].
Qed.
Print Assumptions C78_keys.

(** the sample (a device and interfaces are missing on each side) with all combinations of the flags *)
Definition keys78 (w : world) (a : aid) : list (string * string) := map fst (stored_objs w a).
Definition end78 (flags : N) : world := fst (sync_from 20 default_hooks 1 0 base_class flags false None w0).
Definition kids78 (w : world) (k : string * string) : option (dict (list string)) :=
  match lookup w 1 (fst k) (snd k) with Some r => option_map o_kids (nth_error (w_heap w) r) | None => None end.
Example C78_example :
  alike w0 20 0 1 sa0 da0 /\ comparable w0 20 0 1 sa0 da0 /\ entire w0 0 0 1 sa0 da0 /\
  keys78 w0 0 = [("site", "nyc"); ("site", "sfo"); ("device", "r1"); ("device", "r2"); ("interface", "r1__eth0"); ("interface", "r1__eth1")]%string /\
  keys78 w0 1 = [("site", "nyc"); ("site", "lon"); ("device", "r1"); ("device", "r3"); ("interface", "r1__eth0"); ("interface", "r1__lo"); ("interface", "r3__eth9")]%string /\
  keys78 (end78 2) 1 = [("site", "nyc"); ("device", "r1"); ("interface", "r1__eth0")]%string /\
  keys78 (end78 4) 1 = [("site", "nyc"); ("site", "lon"); ("site", "sfo"); ("device", "r1"); ("device", "r3"); ("device", "r2");
                        ("interface", "r1__eth0"); ("interface", "r1__lo"); ("interface", "r3__eth9"); ("interface", "r1__eth1")]%string /\
  keys78 (end78 6) 1 = keys78 w0 1 /\
  map (fun f => kids78 (end78 f) ("site", "nyc")%string) [0; 2; 4; 6]%N =
    [Some [("devices", ["r1"; "r2"])]; Some [("devices", ["r1"])]; Some [("devices", ["r1"; "r3"; "r2"])]; Some [("devices", ["r1"; "r3"])]]%string.
Proof. split; [exact w0_alike|]. split; [exact w0_comparable|]. split; [exact w0_entire|]. vm_compute. repeat split. Qed.

(** An object that has another parent in the source counts as unmatched on both sides, although both
    have it: with both flags it keeps its old values. *)
Definition w78 : world :=
  mkWorld [mk_site "nyc" "east" [] 0 0; mk_site "sfo" "west" ["r1"] 0 0; mk_device "r1" "edge" [] 0 0;
           mk_site "nyc" "east" ["r1"] 0 1; mk_site "sfo" "west" [] 0 1; mk_device "r1" "leaf" [] 0 1]
    [mk_ad "src" (SLocal [("site", [("nyc", 0); ("sfo", 1)]); ("device", [("r1", 2)])]);
     mk_ad "dst" (SLocal [("site", [("nyc", 3); ("sfo", 4)]); ("device", [("r1", 5)])])]%string [] [].
Definition moved78 : world := fst (sync_from 20 default_hooks 1 0 base_class 6 false None w78).
Theorem C78_moved_refuted : exists w sa da d w',
  nth_error (w_ads w) 0 = Some sa /\ nth_error (w_ads w) 1 = Some da /\ forest w 0 (ad_top sa) /\ forest w 1 (ad_top da) /\ complete w 1 (ad_top da) /\
  comparable w 20 0 1 sa da /\ entire w 0 0 1 sa da /\ sync_from 20 default_hooks 1 0 base_class 6 false None w = (w', Ok d) /\ ~ merged 6 w 0 1 w'.
Proof.
  assert (SA : nth_error (w_ads w78) 0 = Some (mk_ad "src" (SLocal [("site", [("nyc", 0); ("sfo", 1)]); ("device", [("r1", 2)])]%string))) by reflexivity.
  assert (DA : nth_error (w_ads w78) 1 = Some (mk_ad "dst" (SLocal [("site", [("nyc", 3); ("sfo", 4)]); ("device", [("r1", 5)])]%string))) by reflexivity.
  assert (OK : w_ok w78) by (apply w_okb_ok; vm_compute; reflexivity).
  assert (LS : local_ok w78 0) by (apply localb_ok; vm_compute; reflexivity). assert (LD : local_ok w78 1) by (apply localb_ok; vm_compute; reflexivity).
  assert (KS : keyed w78 0) by (apply keyedb_ok; vm_compute; reflexivity). assert (KD : keyed w78 1) by (apply keyedb_ok; vm_compute; reflexivity).
  exists w78. do 2 eexists. destruct (sync_from 20 default_hooks 1 0 base_class 6 false None w78) as [w' r] eqn:E.
  assert (EW : w' = moved78) by (unfold moved78; now rewrite E). destruct r as [d|e]; [|exfalso; assert (X : snd (sync_from 20 default_hooks 1 0 base_class 6 false None w78) <> Err e) by (vm_compute; discriminate); apply X; now rewrite E].
  exists d, w'. split; [exact SA|]. split; [exact DA|].
  split; [apply (local_forest w78 0 LS KS); [intros p p' k L L'; apply (listed_iff w78 0 LS KS) in L, L'; revert L L'; now apply one_parentb_ok|intros p k L; apply (listed_iff w78 0 LS KS) in L; revert L; now apply no_topb_ok]|].
  split; [apply (local_forest w78 1 LD KD); [intros p p' k L L'; apply (listed_iff w78 1 LD KD) in L, L'; revert L L'; now apply one_parentb_ok|intros p k L; apply (listed_iff w78 1 LD KD) in L; revert L; now apply no_topb_ok]|].
  split; [apply completeb_ok; auto|]. split; [apply (comparableb_ok _ _ _ _ _ _ rank); vm_compute; reflexivity|].
  split; [apply (entireb_ok 5); auto|]. split; [reflexivity|]. subst w'. intros [_ MV _].
  assert (LM : local_ok moved78 1) by (apply localb_ok; vm_compute; reflexivity). assert (KM : keyed moved78 1) by (apply keyedb_ok; vm_compute; reflexivity).
  destruct (proj2 (read_iff w78 0 LS KS ("device", "r1")%string (mk_device "r1" "edge" [] 0 0))) as (R & K); [apply (stored_iff w78 0 LS); exists 2; split; reflexivity|].
  set (o := nth 5 (w_heap moved78) (mk_site "" "" [] 0 0)).
  assert (H : nth_error (w_heap moved78) 5 = Some o) by (vm_compute; reflexivity). assert (G : dget (o_vals o) "role" = Some (VStr "leaf")) by (vm_compute; reflexivity).
  clearbody o.
  assert (L : lookup moved78 1 "device" "r1" = Some 5) by (vm_compute; reflexivity).
  destruct (proj2 (read_iff moved78 1 LM KM ("device", "r1")%string o) (proj2 (stored_iff moved78 1 LM ("device", "r1")%string o) (ex_intro _ 5 (conj L H)))) as (R' & K').
  destruct (MV _ _ _ R K R' K') as ((_ & _ & _ & V) & _). destruct (V "role"%string) as (v & v' & E1 & E2 & Q); [now left|].
  injection E1 as <-. rewrite G in E2. injection E2 as <-. discriminate.
Qed.
Print Assumptions C78_moved_refuted.
