(** * PropSync: what a synchronisation leaves alone, and which diff it applies (C34, C35, C40, C43-C45, C48-C50).

    [intact], [names], [mentioned], [doomed], [uses], [proper_dst], ... are defined in SyncSpec.v. *)
From Verif Require Import SyncSample.

(** C34.  Whatever the hooks do, and however the synchronisation ends, the source is as it was. *)
Theorem C34_source_intact : forall fuel h dst src dc flags cb given w,
  src <> dst -> w_ok w -> share_nothing w src dst ->
  intact w (fst (sync_from fuel h dst src dc flags cb given w)) src.
Proof. exact sync_source. Qed.
Print Assumptions C34_source_intact.

(** ... and so is every other adapter that shares nothing with the destination. *)
Theorem C34_others_intact : forall fuel h dst src dc flags cb given w a,
  a <> dst -> w_ok w -> share_nothing w a dst ->
  intact w (fst (sync_from fuel h dst src dc flags cb given w)) a.
Proof. exact sync_others. Qed.
Print Assumptions C34_others_intact.

Example C34_example : 0 <> 1 /\ w_ok w0 /\ share_nothing w0 0 1 /\
  (exists d, snd (sync_from 20 bad_hooks 1 0 base_class 1 true None w0) = Ok d) /\
  snd (sync_from 20 bad_hooks 1 0 base_class 0 true None w0) = Err ObjectNotUpdated /\
  w_heap (fst (sync_from 20 bad_hooks 1 0 base_class 1 true None w0)) <> w_heap w0.
Proof.
  split; [discriminate|]. split; [exact w0_ok|]. split; [exact w0_share|]. split; [eexists; vm_compute; reflexivity|].
  split; [vm_compute; reflexivity|]. vm_compute. discriminate.
Qed.

(** a third adapter, holding one site of the destination's names on a Redis server *)
Definition w_third : world :=
  mkWorld heap0 (w_ads w0 ++ [mk_ad "other" (SRedis "s")]) [(redis_key "s" "site" "nyc", mk_site "nyc" "north" [] 0 2)] [].
Example C34_others_example : w_ok w_third /\ share_nothing w_third 2 1 /\
  (exists d, snd (sync_from 20 default_hooks 1 0 base_class 0 true None w_third) = Ok d /\ diff_has_diffs d = true).
Proof.
  split; [apply w_okb_ok; reflexivity|]. split; [|eexists; split; vm_compute; reflexivity]. split.
  - intros r (ad & d & t & u & (E & S) & _). injection E as <-. discriminate.
  - intros i j _ (ad & E & S). injection E as <-. discriminate.
Qed.

(** C35.  An object of the destination that no element of the diff (other than a
    creation) names, and that no deletion takes along, keeps its data and stays stored. *)
Theorem C35_untouched : forall fuel h dst src dc flags cb given w k r o,
  proper_dst w dst -> lookup w dst (fst k) (snd k) = Some r -> nth_error (w_heap w) r = Some o ->
  (forall d, uses fuel dst src dc flags cb given w d ->
     sets_no_identifier w dst (d_groups d) /\ ~ mentioned w dst (d_groups d) not_create_act k /\ ~ doomed w dst (d_groups d) k) ->
  let w' := fst (sync_from fuel h dst src dc flags cb given w) in
  lookup w' dst (fst k) (snd k) = Some r /\ exists o', nth_error (w_heap w') r = Some o' /\ same_data o o'.
Proof. exact sync_touches. Qed.
Print Assumptions C35_untouched.

(** the part of the sample diff about r1 alone leaves r3 alone *)
Definition d_r1 : diff := mkDiff base_class [("device", [("r1", e_r1)])] 0.
Lemma d_r1_names k : names w0 1 e_r1 k -> k = ("device", "r1").
Proof. intros (ad & c & H1 & H2 & H3 & H4). injection H1 as <-. injection H2 as <-. destruct k. simpl in *. subst. injection H4 as <-. reflexivity. Qed.
Example C35_example : proper_dst w0 1 /\ lookup w0 1 "device" "r3" = Some 8 /\
  (forall d, uses 20 1 0 base_class 0 true (Some d_r1) w0 d ->
     sets_no_identifier w0 1 (d_groups d) /\ ~ mentioned w0 1 (d_groups d) not_create_act ("device", "r3") /\
     ~ doomed w0 1 (d_groups d) ("device", "r3")).
Proof.
  split; [exact w0_proper|]. split; [reflexivity|].
  assert (ONLY : forall e, occurs e (d_groups d_r1) -> e = e_r1).
  { intros e O. apply In_tree_all in O. destruct O as [<-|[]]. reflexivity. }
  intros d [(E & _)|([E|(d' & E & L)] & _)]; [|discriminate|injection E as <-; discriminate].
  injection E as <-. split; [apply sets_nob_ok; reflexivity|]. split.
  - intros (e & O & _ & N). rewrite (ONLY e O) in N. now apply d_r1_names in N.
  - intros [(e & O & A & _)|(kd & r & o & (e & O & A & _) & _)]; rewrite (ONLY e O) in A; discriminate.
Qed.

(** C40.  Wherever the synchronisation fails, the destination's store maps each key to an
    object of that type and unique id, no object is stored twice, and a child list has
    gained only references to stored objects, except to objects this diff deletes. *)
Theorem C40_consistent : forall fuel h dst src dc flags cb given w,
  proper_dst w dst ->
  (forall d, uses fuel dst src dc flags cb given w d -> sets_no_identifier w dst (d_groups d)) ->
  let w' := fst (sync_from fuel h dst src dc flags cb given w) in
  local_ok w' dst /\ keyed w' dst /\
  (forall k k' r, lookup w' dst (fst k) (snd k) = Some r -> lookup w' dst (fst k') (snd k') = Some r -> k = k') /\
  (forall k r o t u, lookup w' dst (fst k) (snd k) = Some r -> nth_error (w_heap w') r = Some o -> lists o t u ->
     (exists o0, nth_error (w_heap w) r = Some o0 /\ lists o0 t u) \/
     lookup w' dst t u <> None \/
     exists d, uses fuel dst src dc flags cb given w d /\
       (mentioned w dst (d_groups d) is_delete_act (t, u) \/ deletes_below w dst (d_groups d))).
Proof. exact sync_consistent. Qed.
Print Assumptions C40_consistent.

Example C40_example : proper_dst w0 1 /\
  (forall d, uses 20 1 0 base_class 0 true None w0 d -> sets_no_identifier w0 1 (d_groups d)) /\
  exists d, uses 20 1 0 base_class 0 true None w0 d.
Proof.
  assert (R : snd (diff_from 20 1 0 base_class 0 true w0) = Ok d0) by (vm_compute; reflexivity).
  split; [exact w0_proper|]. split; [|exists d0; right; auto].
  intros d [(E & _)|(_ & E)]; [discriminate|]. rewrite R in E. apply Ok_inj in E. rewrite <- E. exact d0_sets.
Qed.

(** An update that sets an identifier breaks it: only a hand-made diff (or classes with
    different identifiers on the two sides) can do that. *)
Definition d_rename : diff :=
  mkDiff base_class [("device", [("r1", mkElem "device" "r1" [("name", VStr "r1")] "src" "dst" (Some [("name", VStr "r9")]) (Some [("name", VStr "r1")]) [])])] 0.
Theorem C40_rename_refuted : exists w d, proper_dst w 1 /\ uses 20 1 0 base_class 0 false (Some d) w d /\
  ~ keyed (fst (sync_from 20 default_hooks 1 0 base_class 0 false (Some d) w)) 1.
Proof.
  exists w0, d_rename. split; [exact w0_proper|]. split; [left; split; [reflexivity|split; [discriminate|reflexivity]]|].
  intros K. assert (L : lookup (fst (sync_from 20 default_hooks 1 0 base_class 0 false (Some d_rename) w0)) 1 "device" "r1" = Some 7) by (vm_compute; reflexivity).
  destruct (K _ _ _ L) as (o & H1 & _ & H3 & _).
  assert (X : option_map get_unique_id (nth_error (w_heap (fst (sync_from 20 default_hooks 1 0 base_class 0 false (Some d_rename) w0))) 7) = Some (Ok "r9")) by (vm_compute; reflexivity).
  rewrite H1 in X. simpl in X. congruence.
Qed.
Print Assumptions C40_rename_refuted.

(** C43.  A diff with elements is applied as given, in the world as it is, and returned;
    of the wrong class it is refused before anything happens. *)
Theorem C43_given : forall fuel h dst src dc flags cb d w, diff_len d <> 0 ->
  sync_from fuel h dst src dc flags cb (Some d) w =
  if isinstance d dc then run_sync (mkSEnv src dst flags (diff_len d) cb h fuel) d w else (w, Err DiffClassMismatch).
Proof. exact given_used. Qed.
Print Assumptions C43_given.
Theorem C43_returned : forall env d w d', snd (run_sync env d w) = Ok d' -> d' = d.
Proof. exact run_sync_result. Qed.
Print Assumptions C43_returned.
(** An element of a type that the destination has no class for: AttributeError, before anything happens. *)
Theorem C43_unknown : forall fuel h dst src dc flags cb d w ad e rest,
  diff_len d <> 0 -> isinstance d dc = true -> nth_error (w_ads w) dst = Some ad ->
  ordered (dc_order (d_class d)) (fun e => e) (d_groups d) = e :: rest -> dget (ad_classes ad) (e_type e) = None ->
  sync_from fuel h dst src dc flags cb (Some d) w = (w, Err ExnAttributeError).
Proof.
  intros fuel h dst src dc flags cb d w ad e rest HL HI HA HO HC. rewrite (given_used fuel h dst src dc flags cb d w HL), HI.
  unfold run_sync, bind, perform_sync. rewrite (ordered_map (dc_order (d_class d)) (sync_elem (dc_order (d_class d)) _)), HO. cbn [map run_kids].
  rewrite sync_elem_eq. set (kids := ordered _ _ (e_kids e)). clearbody kids.
  unfold bind, sync_body, slift, get_adapter, bind, lift. cbn [sv_dst ss_w]. rewrite HA. cbn. rewrite HC. reflexivity.
Qed.
Print Assumptions C43_unknown.
(** Not so for a diff without elements: it is falsy, so a new diff is computed and
    applied, and the class is not checked. *)
Theorem C43_empty_refuted : exists w d h,
  diff_len d = 0 /\ isinstance d base_class = false /\
  (exists d', snd (sync_from 20 h 1 0 base_class 0 false (Some d) w) = Ok d' /\ diff_len d' = 10) /\
  lookup w 1 "site" "sfo" = None /\
  lookup (fst (sync_from 20 h 1 0 base_class 0 false (Some d) w)) 1 "site" "sfo" <> None.
Proof.
  exists w0, (empty_diff (mkDiffClass "OtherDiff" ["OtherDiff"] order_default)), default_hooks.
  split; [reflexivity|]. split; [reflexivity|]. split; [eexists; split; vm_compute; reflexivity|].
  split; [reflexivity|]. vm_compute. discriminate.
Qed.
Print Assumptions C43_empty_refuted.
Example C43_example : diff_len d_r1 <> 0 /\ isinstance d_r1 base_class = true /\
  isinstance d_r1 (mkDiffClass "OtherDiff" ["OtherDiff"; "Diff"] order_default) = false /\
  (exists d, diff_len d = 1 /\ ordered (dc_order (d_class d)) (fun e => e) (d_groups d) = [mkElem "rack" "x" [] "s" "d" None None []] /\
     sync_from 20 default_hooks 1 0 base_class 0 false (Some d) w0 = (w0, Err ExnAttributeError)).
Proof.
  split; [discriminate|]. split; [reflexivity|]. split; [reflexivity|].
  exists (mkDiff base_class [("rack", [("x", mkElem "rack" "x" [] "s" "d" None None [])])] 0). repeat split.
Qed.

(** C44.  SKIP_UNMATCHED_SRC (bit 1): nothing is created; SKIP_UNMATCHED_DST (bit 2): nothing is deleted. *)
Theorem C44_skip_src : forall dst fuel h src dc flags cb w sa da, w_ok w ->
  nth_error (w_ads w) src = Some sa -> nth_error (w_ads w) dst = Some da -> N.testbit flags 1 = true ->
  let w' := fst (sync_from fuel h dst src dc flags cb None w) in
  (exists evs, w_trace w' = w_trace w ++ evs /\ forall ev, In ev evs -> ~ is_hook ACreate ev) /\
  forall t u, stored w' dst t u -> stored w dst t u.
Proof. exact skip_src. Qed.
Print Assumptions C44_skip_src.
Theorem C44_skip_dst : forall dst fuel h src dc flags cb w sa da, w_ok w ->
  nth_error (w_ads w) src = Some sa -> nth_error (w_ads w) dst = Some da -> N.testbit flags 2 = true ->
  let w' := fst (sync_from fuel h dst src dc flags cb None w) in
  (exists evs, w_trace w' = w_trace w ++ evs /\ forall ev, In ev evs -> ~ is_hook ADelete ev) /\
  (forall t u, stored w dst t u -> stored w' dst t u) /\
  forall t u r, lookup w dst t u = Some r -> lookup w' dst t u = Some r.
Proof. exact skip_dst. Qed.
Print Assumptions C44_skip_dst.
(** The flags act when the diff is computed: a supplied diff is applied in full. *)
Theorem C44_given_refuted : exists w d, snd (diff_from 20 1 0 base_class 0 false w) = Ok d /\
  exists evs, w_trace (fst (sync_from 20 default_hooks 1 0 base_class 6 false (Some d) w)) = w_trace w ++ evs /\
    (exists ev, In ev evs /\ is_hook ACreate ev) /\ (exists ev, In ev evs /\ is_hook ADelete ev).
Proof.
  exists w0, d0. split; [vm_compute; reflexivity|]. eexists. split; [vm_compute; reflexivity|].
  split; [exists (EvHook ACreate "site" [("name", VStr "sfo")] [("region", VStr "west")])|exists (EvHook ADelete "site" [("name", VStr "lon")] [])];
    (split; [|simpl; reflexivity]); vm_compute; repeat (left; reflexivity) || (repeat (try (left; reflexivity); right)).
Qed.
Print Assumptions C44_given_refuted.
Example C44_example : w_ok w0 /\ N.testbit 2 1 = true /\ N.testbit 4 2 = true /\
  (exists d, snd (sync_from 20 default_hooks 1 0 base_class 2 false None w0) = Ok d /\ diff_len d = 7) /\
  (exists d, snd (sync_from 20 default_hooks 1 0 base_class 4 false None w0) = Ok d /\ diff_len d = 6).
Proof. split; [exact w0_ok|]. split; [reflexivity|]. split; [reflexivity|]. split; eexists; split; vm_compute; reflexivity. Qed.

(** C45.  An object of the destination marked IGNORE keeps its data and stays stored,
    unless it is below a deleted object that takes its children along. *)
Theorem C45_ignored : forall fuel h dst src dc flags cb w sa k r o,
  w_ok w -> nth_error (w_ads w) src = Some sa -> proper_dst w dst -> same_ids w dst ->
  lookup w dst (fst k) (snd k) = Some r -> nth_error (w_heap w) r = Some o -> ignored o ->
  (forall d, snd (diff_from fuel dst src dc flags cb w) = Ok d ->
     sets_no_identifier w dst (d_groups d) /\
     forall kd r' o', mentioned w dst (d_groups d) is_delete_act kd -> lookup w dst (fst kd) (snd kd) = Some r' ->
       nth_error (w_heap w) r' = Some o' -> skips_children (o_flags o') -> ~ reaches w dst kd k) ->
  let w' := fst (sync_from fuel h dst src dc flags cb None w) in
  lookup w' dst (fst k) (snd k) = Some r /\ exists o', nth_error (w_heap w') r = Some o' /\ same_data o o'.
Proof. exact sync_ignored. Qed.
Print Assumptions C45_ignored.
(** the sample pair with r1 (to be updated) and lon (to be deleted) ignored in the destination *)
Definition w_ign : world :=
  mkWorld (list_set (list_set heap0 7 (mk_device "r1" "leaf" ["r1__eth0"; "r1__lo"] 1 1)) 12 (mk_site "lon" "uk" [] 1 1))
          (w_ads w0) [] [].
Example C45_example : w_ok w_ign /\ proper_dst w_ign 1 /\ same_ids w_ign 1 /\
  lookup w_ign 1 "site" "lon" = Some 12 /\ (exists o, nth_error (w_heap w_ign) 12 = Some o /\ ignored o) /\
  forall d, snd (diff_from 20 1 0 base_class 0 false w_ign) = Ok d ->
     sets_no_identifier w_ign 1 (d_groups d) /\
     forall kd r' o', mentioned w_ign 1 (d_groups d) is_delete_act kd -> lookup w_ign 1 (fst kd) (snd kd) = Some r' ->
       nth_error (w_heap w_ign) r' = Some o' -> skips_children (o_flags o') -> ~ reaches w_ign 1 kd ("site", "lon").
Proof.
  split; [apply w_okb_ok; reflexivity|]. split; [apply properb_ok; reflexivity|]. split; [apply same_idsb_ok; reflexivity|].
  split; [reflexivity|]. split; [eexists; split; reflexivity|].
  intros d E. split.
  { apply sets_nob_ok. assert (R : rbind (snd (diff_from 20 1 0 base_class 0 false w_ign)) (fun d => Ok (sets_nob w_ign 1 (d_groups d))) = Ok true) by (vm_compute; reflexivity).
    rewrite E in R. now apply Ok_inj in R. }
  intros kd r' o' _ L Ho SK. exfalso.
  assert (H : forallb (fun o => negb (N.testbit (o_flags o) 1)) (w_heap w_ign) = true) by reflexivity.
  rewrite forallb_forall in H. specialize (H o' (nth_error_In _ _ Ho)). unfold skips_children in SK. rewrite SK in H. discriminate.
Qed.
(** Below such an object it is removed: the device r3 is deleted together with its ignored interface. *)
Definition w_casc : world :=
  mkWorld (list_set (list_set heap0 8 (mk_device "r3" "core" ["r3__eth9"] 2 1)) 11 (mk_intf "r3" "eth9" 1500 1 1)) (w_ads w0) [] [].
Theorem C45_cascade_refuted : exists w k r o,
  w_ok w /\ proper_dst w 1 /\ same_ids w 1 /\ lookup w 1 (fst k) (snd k) = Some r /\ nth_error (w_heap w) r = Some o /\ ignored o /\
  (exists d, snd (sync_from 20 default_hooks 1 0 base_class 0 false None w) = Ok d) /\
  lookup (fst (sync_from 20 default_hooks 1 0 base_class 0 false None w)) 1 (fst k) (snd k) = None.
Proof.
  exists w_casc, ("interface", "r3__eth9"), 11. eexists. split; [apply w_okb_ok; reflexivity|].
  split; [apply properb_ok; reflexivity|]. split; [apply same_idsb_ok; reflexivity|]. split; [reflexivity|]. split; [reflexivity|].
  split; [reflexivity|]. split; [eexists; vm_compute; reflexivity|vm_compute; reflexivity].
Qed.
Print Assumptions C45_cascade_refuted.

(** C48.  Moving a child to a parent that is processed before its old one fails. *)
Definition w_move : world :=
  mkWorld [mk_site "nyc" "east" ["r1"] 0 0; mk_site "sfo" "west" [] 0 0; mk_device "r1" "edge" [] 0 0;
           mk_site "nyc" "east" [] 0 1; mk_site "sfo" "west" ["r1"] 0 1; mk_device "r1" "edge" [] 0 1]
          [mk_ad "src" (SLocal [("site", [("nyc", 0); ("sfo", 1)]); ("device", [("r1", 2)])]);
           mk_ad "dst" (SLocal [("site", [("nyc", 3); ("sfo", 4)]); ("device", [("r1", 5)])])] [] [].
Theorem C48_move_refuted : exists w, w_ok w /\ proper_dst w 1 /\ share_nothing w 0 1 /\
  snd (sync_from 20 default_hooks 1 0 base_class 0 false None w) = Err ObjectNotCreated /\
  (* continuing on failure the child is lost altogether *)
  (exists d, snd (sync_from 20 default_hooks 1 0 base_class 1 false None w) = Ok d) /\
  lookup (fst (sync_from 20 default_hooks 1 0 base_class 1 false None w)) 1 "device" "r1" = None.
Proof.
  exists w_move. split; [apply w_okb_ok; reflexivity|]. split; [apply properb_ok; reflexivity|]. split; [apply shareb_ok; reflexivity|].
  split; [vm_compute; reflexivity|]. split; [eexists; vm_compute; reflexivity|vm_compute; reflexivity].
Qed.
Print Assumptions C48_move_refuted.

(** C49.  The same child type under different field names: comparing reads the source's
    field name on the destination's object. *)
Definition c_site2 : cls :=
  mkCls "site" ["name"] [] ["region"] [("device", "boxes")]
        [("name", None); ("region", Some VNone); ("note", Some VNone)] ["boxes"] 0.
Definition w_field : world :=
  mkWorld [mk_site "nyc" "east" [] 0 0; mkObj c_site2 [("name", VStr "nyc"); ("region", VStr "east"); ("note", VNone)] [("boxes", [])] 0 (Some 1) StSuccess ""]
          [mk_ad "src" (SLocal [("site", [("nyc", 0)])]);
           mkAdapter "dst" "Sample" ["site"] [("site", c_site2); ("device", c_device); ("interface", c_intf)] (SLocal [("site", [("nyc", 1)])])] [] [].
Theorem C49_field_refuted : exists w, w_ok w /\ proper_dst w 1 /\
  snd (diff_from 20 1 0 base_class 0 false w) = Err ExnAttributeError.
Proof.
  exists w_field. split; [apply w_okb_ok; reflexivity|]. split; [apply properb_ok; reflexivity|]. vm_compute. reflexivity.
Qed.
Print Assumptions C49_field_refuted.
(** A child type the destination's class does not have: harmless when the parent exists on both
    sides, an error when the parent is created. *)
Definition c_site3 : cls :=
  mkCls "site" ["name"] [] ["region"] [] [("name", None); ("region", Some VNone); ("note", Some VNone)] [] 0.
Definition ad3 (st : store) : adapter :=
  mkAdapter "dst" "Sample" ["site"] [("site", c_site3); ("device", c_device); ("interface", c_intf)] st.
Definition site3 : obj := mkObj c_site3 [("name", VStr "nyc"); ("region", VStr "uk"); ("note", VNone)] [] 0 (Some 1) StSuccess "".
Definition w_type (dst : dict (dict ref)) : world :=
  mkWorld [mk_site "nyc" "east" ["r1"] 0 0; mk_device "r1" "edge" [] 0 0; site3]
          [mk_ad "src" (SLocal [("site", [("nyc", 0)]); ("device", [("r1", 1)])]); ad3 (SLocal dst)] [] [].
Theorem C49_type_refuted : exists w w', w_ok w /\ w_ok w' /\
  (exists d, snd (sync_from 20 default_hooks 1 0 base_class 0 false None w) = Ok d /\ diff_len d = 1) /\
  snd (sync_from 20 default_hooks 1 0 base_class 0 false None w') = Err ObjectStoreWrongType.
Proof.
  exists (w_type [("site", [("nyc", 2)])]), (w_type []). split; [apply w_okb_ok; reflexivity|]. split; [apply w_okb_ok; reflexivity|].
  split; [eexists; split; vm_compute; reflexivity|vm_compute; reflexivity].
Qed.
Print Assumptions C49_type_refuted.

(** C50.  [a.sync_to(b)] is [b.sync_from(a)], and [a.diff_to(b)] is [b.diff_from(a)]. *)
Theorem C50_sync_to : forall fuel h a b dc flags cb given w,
  sync_to fuel h a b dc flags cb given w = sync_from fuel h b a dc flags cb given w.
Proof. reflexivity. Qed.
Print Assumptions C50_sync_to.
Theorem C50_diff_to : forall fuel a b dc flags cb w, diff_to fuel a b dc flags cb w = diff_from fuel b a dc flags cb w.
Proof. reflexivity. Qed.
Print Assumptions C50_diff_to.
Example C50_example : exists d, snd (sync_to 20 default_hooks 0 1 base_class 0 false None w0) = Ok d /\ diff_len d = 10.
Proof. eexists. split; vm_compute; reflexivity. Qed.
