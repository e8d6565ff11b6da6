(** * PropRemote: a remote system behind the hooks (C89).

    [perform], [driven], [follow_remote], [in_step], [attempts], [matches] and the conditions are defined in RemoteSpec.v, [alike],
    [comparable] and [entire] in ConvergeSpec.v and CopySpec.v. *)
From Verif Require Import RemoteMore RunSample PropSync PropCopy.

(** C89.  If the hooks pass each call on to a remote system and do as it answers -- call the base method and return the object if the call
    was accepted, neither call it nor return the object if it was refused -- then whatever it refuses, the remote system and the destination
    have the same objects with the same attributes after a synchronisation if they had before; also if the synchronisation was broken off by an
    ObjectCrudException. *)
Theorem C89_in_step : forall fuel h dst src dc flags cb given name accepts w R,
  proper_dst w dst -> names_records name w dst -> follow_remote accepts h -> hooks_write (not_attribute w dst) h -> no_skipping w dst ->
  (forall d, uses fuel dst src dc flags cb given w d -> sets_no_identifier w dst (d_groups d) /\ gives_attributes w dst (d_groups d)) ->
  in_step R w dst ->
  let (w', r) := sync_from fuel h dst src dc flags cb given w in
  (forall x, r = Err x -> crud_exception x) -> in_step (driven name accepts (w_trace w) (new_events w w') R) w' dst.
Proof.
  intros fuel h dst src dc flags cb given name accepts w R HP HN HF HW HS HU HI.
  pose proof (remote_stays fuel h dst src dc flags cb given name accepts w R HP HN HF HW HS HU HI) as H.
  destruct (sync_from fuel h dst src dc flags cb given w) as [w' r]. intros HX. exact (proj2 (H HX)).
Qed.
Print Assumptions C89_in_step.
(** So they have after any number of synchronisations from whatever adapters, whichever of them fail. *)
Theorem C89_attempts : forall h dst name accepts w w' R,
  proper_dst w dst -> names_records name w dst -> follow_remote accepts h -> hooks_write (not_attribute w dst) h -> no_skipping w dst -> in_step R w dst ->
  attempts h dst w w' -> in_step (driven name accepts (w_trace w) (new_events w w') R) w' dst.
Proof. intros h dst name accepts w w' R HP HN HF HW HS HI A. exact (proj2 (attempts_stay h dst name accepts w w' A HF R HP HN HW HS HI)). Qed.
Print Assumptions C89_attempts.
(** If nothing is refused then afterwards the remote system has exactly the source's objects, with equal attributes: the hook calls alone carry
    over all the data. *)
Theorem C89_copy : forall fuel h dst src dc flags cb name w sa da R,
  alike w fuel src dst sa da -> comparable w fuel src dst sa da -> entire w flags src dst sa da -> yields_once (dc_order dc) ->
  hooks_succeed h -> spares_attributes da h -> proper_dst w dst -> told_apart w dst -> names_records name w dst -> no_skipping w dst -> in_step R w dst ->
  exists w' d, sync_from fuel h dst src dc flags cb None w = (w', Ok d) /\
    matches (driven name (fun _ _ => true) (w_trace w) (new_events w w') R) w src.
Proof. exact remote_copy. Qed.
Print Assumptions C89_copy.

(** ** Examples *)

(** hooks that do as the remote system answers *)
Definition event_of (w : world) (hc : hookcall) : option event :=
  match hc with
  | HCreate c ids attrs => Some (EvHook ACreate (c_modelname c) ids attrs)
  | HUpdate r attrs => option_map (fun o => EvHook AUpdate (get_type o) (get_identifiers o) attrs) (nth_error (w_heap w) r)
  | HDelete r => option_map (fun o => EvHook ADelete (get_type o) (get_identifiers o) []) (nth_error (w_heap w) r)
  end.
Definition refusal (hc : hookcall) : exn := match hc with HCreate _ _ _ => ObjectNotCreated | HUpdate _ _ => ObjectNotUpdated | HDelete _ => ObjectNotDeleted end.
Definition relay (accepts : list event -> event -> bool) : hooks := fun w hc =>
  match event_of w hc with
  | Some ev => if accepts (w_trace w) ev then default_outcome else mkOut false None [] (HRaise (refusal hc))
  | None => default_outcome
  end.
Lemma relay_follows accepts : follow_remote accepts (relay accepts).
Proof.
  intros w hc ev E. assert (EV : event_of w hc = Some ev).
  { destruct hc; cbn in *; [now rewrite E|destruct E as (o & -> & ->); reflexivity|destruct E as (o & -> & ->); reflexivity]. }
  unfold relay. rewrite EV. destruct (accepts (w_trace w) ev); cbn; split; congruence.
Qed.
Lemma relay_writes accepts X : hooks_write X (relay accepts).
Proof. intros w hc k. unfold relay. destruct (event_of w hc) as [ev|]; [destruct (accepts (w_trace w) ev)|]; intros []. Qed.

(** a remote system with the destination's objects *)
Definition records_of (w : world) (a : aid) : remote := fun t u =>
  match lookup w a t u with Some r => match nth_error (w_heap w) r with Some o => Some (dget (o_vals o)) | None => None end | None => None end.
Lemma records_in_step w a : keyed w a -> in_step (records_of w a) w a.
Proof.
  intros K t u. unfold records_of. destruct (lookup w a t u) as [r|] eqn:L; [|reflexivity]. destruct (K t u r L) as (o & Ho & _). rewrite Ho.
  exists o, (dget (o_vals o)). auto.
Qed.

(** the names *)
Definition name_of (cs : dict cls) (t : string) (ids : dict val) : string :=
  match dget cs t with Some c => match create_unique_id c ids with Ok u => u | Err _ => "" end | None => "" end.
Lemma in_s_classes t c : dget s_classes t = Some c -> In c [c_site; c_device; c_intf].
Proof.
  unfold s_classes. cbn [dget]. intros H. repeat match type of H with (if ?b then _ else _) = _ => destruct b; [injection H as <-; cbn; auto|] end. discriminate.
Qed.
Lemma sample_class w a ad c : local_ok w a -> nth_error (w_ads w) a = Some ad -> ad_classes ad = s_classes ->
  Forall (fun ko => In (o_cls (snd ko)) [c_site; c_device; c_intf]) (stored_objs w a) -> dst_class w a c -> In c [c_site; c_device; c_intf].
Proof.
  intros LO A EC F [(ad' & t & A' & G)|(t & u & r & o & L & Ho & <-)].
  - rewrite A in A'. injection A' as <-. rewrite EC in G. eapply in_s_classes; eauto.
  - apply (proj1 (Forall_forall _ _) F ((t, u), o)). apply stored_iff; [exact LO|]. eauto.
Qed.
Lemma sample_names w a : (forall c, dst_class w a c -> In c [c_site; c_device; c_intf]) -> names_records (name_of s_classes) w a.
Proof.
  intros H c ids u DC E. unfold name_of. destruct (H c DC) as [<-|[<-|[<-|[]]]].
  - change (dget s_classes (c_modelname c_site)) with (Some c_site). cbv beta iota. now rewrite E.
  - change (dget s_classes (c_modelname c_device)) with (Some c_device). cbv beta iota. now rewrite E.
  - change (dget s_classes (c_modelname c_intf)) with (Some c_intf). cbv beta iota. now rewrite E.
Qed.
Lemma w0_sample c : dst_class w0 1 c -> In c [c_site; c_device; c_intf].
Proof.
  apply (sample_class w0 1 da0 c); [exact (proj1 w0_proper)|reflexivity|reflexivity|].
  vm_compute (stored_objs w0 1). do 7 (constructor; [cbn; auto|]). constructor.
Qed.
Lemma sample_apart w a : (forall c, dst_class w a c -> In c [c_site; c_device; c_intf]) -> told_apart w a.
Proof.
  intros H c c' f D D' M I. destruct (H c D) as [<-|[<-|[<-|[]]]], (H c' D') as [<-|[<-|[<-|[]]]]; try discriminate M; cbn in I |- *; intuition congruence.
Qed.
Lemma w0_no_skipping : no_skipping w0 1.
Proof.
  split.
  - intros t u r o L Ho. assert (I : In ((t, u), o) (stored_objs w0 1)) by (apply stored_iff; [exact (proj1 w0_proper)|eauto]).
    vm_compute (stored_objs w0 1) in I. cbn [In] in I. unfold skips_children. repeat destruct I as [I|I]; try (injection I as <- <- <-; discriminate). destruct I.
  - intros ad t c A G. injection A as <-. apply in_s_classes in G as [<-|[<-|[<-|[]]]]; discriminate.
Qed.

(** whether the elements give values for all attributes *)
Definition givesb (cs : dict cls) (gs : dict (dict elem)) : bool :=
  forallb (fun e => match e_src e, e_dst e, dget cs (e_type e) with
                    | Some s, None, Some c => forallb (fun f => dmem s f && smem f (map fst (c_fields c)))%bool (c_attributes c)
                    | _, _, _ => true end) (tree_all gs).
Lemma givesb_ok w a ad gs : nth_error (w_ads w) a = Some ad -> (forall t c, dget (ad_classes ad) t = Some c -> NoDup (map fst (c_fields c))) ->
  givesb (ad_classes ad) gs = true -> gives_attributes w a gs.
Proof.
  intros A ND B e ad' c O AC A' G. rewrite A in A'. injection A' as <-. split; [eauto|]. intros f I.
  pose proof (proj1 (forallb_forall _ _) B e (In_tree _ _ O)) as X. cbv beta in X. unfold e_action, attrs_action in AC.
  destruct (e_src e) as [s|] eqn:ES; [|destruct (e_dst e); discriminate AC].
  destruct (e_dst e) as [s'|] eqn:ED; [destruct (existsb _ _) in AC; discriminate AC|]. rewrite G in X.
  pose proof (proj1 (forallb_forall _ _) X f I) as Y. cbv beta in Y. apply andb_true_iff in Y as [Y1 Y2]. apply smem_In in Y2. split; [exact Y2|].
  unfold dmem in Y1. destruct (dget s f) as [v|] eqn:GV; [|discriminate]. exists v, s. split; [exact ES|]. split; [exact GV|]. now rewrite ED.
Qed.
Lemma sample_fields t c : dget s_classes t = Some c -> NoDup (map fst (c_fields c)).
Proof. intros H. apply in_s_classes in H as [<-|[<-|[<-|[]]]]; cbn; repeat constructor; cbn; intuition discriminate. Qed.

(** A remote system that refuses to create sites and to change devices until a synchronisation is complete: after the first attempt sfo is
    missing and r1 with what is below it is as it was, on both sides; after the second both have all that the source has. *)
Definition accepts89 (past : list event) (ev : event) : bool :=
  (existsb (fun e => match e with EvSyncComplete _ _ => true | _ => false end) past ||
   match ev with EvHook ACreate "site" _ _ | EvHook AUpdate "device" _ _ => false | _ => true end)%bool.
Definition w89a : world := fst (sync_from 20 (relay accepts89) 1 0 base_class 1 false None w0).
Definition w89b : world := fst (sync_from 20 (relay accepts89) 1 0 base_class 1 false None w89a).
Definition remote89 (w : world) : remote := driven (name_of s_classes) accepts89 (w_trace w0) (new_events w0 w) (records_of w0 1).
Definition has (R : remote) (k : string * string) : list (option val) :=
  match R (fst k) (snd k) with Some x => map x ["region"; "role"; "mtu"] | None => [] end.
Definition keys89 : list (string * string) :=
  [("site", "nyc"); ("site", "sfo"); ("site", "lon"); ("device", "r1"); ("device", "r2"); ("device", "r3"); ("interface", "r1__eth0"); ("interface", "r3__eth9")].
Definition step89b (w : world) : bool :=
  match nth_error (w_ads w) 1 with
  | Some ad => match snd (diff_from 20 1 0 base_class 1 false w) with Ok d => (sets_nob w 1 (d_groups d) && givesb (ad_classes ad) (d_groups d))%bool | Err _ => true end
  | None => false
  end.
Lemma step89 w : match nth_error (w_ads w) 1 with Some ad => ad_classes ad = s_classes | None => True end -> step89b w = true ->
  forall d, uses 20 1 0 base_class 1 false None w d -> sets_no_identifier w 1 (d_groups d) /\ gives_attributes w 1 (d_groups d).
Proof.
  intros EC B d [(X & _)|(_ & DF)]; [discriminate|]. unfold step89b in B. rewrite DF in B. destruct (nth_error (w_ads w) 1) as [ad|] eqn:A; [|discriminate].
  apply andb_true_iff in B as [B1 B2]. split; [now apply sets_nob_ok|]. apply (givesb_ok w 1 ad); [exact A|intros t c; rewrite EC; apply sample_fields|exact B2].
Qed.
Definition okb {A} (r : result A) : bool := match r with Ok _ => true | Err _ => false end.
Lemma attempt89 h w w1 w' : match nth_error (w_ads w) 1 with Some ad => ad_classes ad = s_classes | None => True end -> step89b w = true ->
  okb (snd (sync_from 20 h 1 0 base_class 1 false None w)) = true ->
  w1 = fst (sync_from 20 h 1 0 base_class 1 false None w) -> attempts h 1 w1 w' -> attempts h 1 w w'.
Proof.
  intros EC B OK -> A. apply (attempts_one h 1 w 20 0 base_class 1%N false None w'); [now apply step89| |exact A].
  intros x E. rewrite E in OK. discriminate.
Qed.
Example C89_example :
  proper_dst w0 1 /\ names_records (name_of s_classes) w0 1 /\ follow_remote accepts89 (relay accepts89) /\ hooks_write (not_attribute w0 1) (relay accepts89) /\
  no_skipping w0 1 /\ told_apart w0 1 /\ in_step (records_of w0 1) w0 1 /\ attempts (relay accepts89) 1 w0 w89a /\ attempts (relay accepts89) 1 w0 w89b /\
  map (has (remote89 w0)) keys89 =
    [[Some (VStr "east"); None; None]; []; [Some (VStr "uk"); None; None]; [None; Some (VStr "leaf"); None]; []; [None; Some (VStr "core"); None];
     [None; None; Some (VInt 1500)]; [None; None; Some (VInt 1500)]] /\
  map (has (remote89 w89a)) keys89 =
    [[Some (VStr "east"); None; None]; []; []; [None; Some (VStr "leaf"); None]; [None; Some (VStr "core"); None]; [];
     [None; None; Some (VInt 1500)]; []] /\
  map (has (remote89 w89b)) keys89 =
    [[Some (VStr "east"); None; None]; [Some (VStr "west"); None; None]; []; [None; Some (VStr "edge"); None]; [None; Some (VStr "core"); None]; [];
     [None; None; Some (VInt 9000)]; []].
Proof.
  assert (A1 : attempts (relay accepts89) 1 w89a w89b).
  { apply (attempt89 (relay accepts89) w89a w89b w89b); [vm_compute; reflexivity|vm_compute; reflexivity|vm_compute; reflexivity|unfold w89b; reflexivity|]. apply attempts_none. }
  assert (A0 : forall w', attempts (relay accepts89) 1 w89a w' -> attempts (relay accepts89) 1 w0 w').
  { clear A1. intros w' A. apply (attempt89 (relay accepts89) w0 w89a w'); [vm_compute; reflexivity|vm_compute; reflexivity|vm_compute; reflexivity|unfold w89a; reflexivity|]. exact A. }
  split; [exact w0_proper|]. split; [exact (sample_names _ _ w0_sample)|]. split; [apply relay_follows|]. split; [apply relay_writes|].
  split; [exact w0_no_skipping|]. split; [exact (sample_apart _ _ w0_sample)|]. split; [apply records_in_step; exact (proj1 (proj2 w0_proper))|].
  split; [apply A0, attempts_none|]. split; [exact (A0 _ A1)|]. split; [vm_compute; reflexivity|]. split; vm_compute; reflexivity.
Qed.

(** with hooks that write a note and refuse nothing *)
Definition w89n : world := fst (sync_from 20 note_hooks 1 0 base_class 0 false None w0).
Example C89_copied :
  alike w0 20 0 1 sa0 da0 /\ comparable w0 20 0 1 sa0 da0 /\ entire w0 0 0 1 sa0 da0 /\ yields_once (dc_order base_class) /\
  hooks_succeed note_hooks /\ spares_attributes da0 note_hooks /\ proper_dst w0 1 /\ told_apart w0 1 /\ names_records (name_of s_classes) w0 1 /\
  no_skipping w0 1 /\ in_step (records_of w0 1) w0 1 /\
  map (has (driven (name_of s_classes) (fun _ _ => true) (w_trace w0) (new_events w0 w89n) (records_of w0 1))) keys89 =
    [[Some (VStr "east"); None; None]; [Some (VStr "west"); None; None]; []; [None; Some (VStr "edge"); None]; [None; Some (VStr "core"); None]; [];
     [None; None; Some (VInt 9000)]; []].
Proof.
  split; [exact w0_alike|]. split; [exact w0_comparable|]. split; [exact w0_entire|]. split; [exact order_default_once|]. split; [exact note_succeed|].
  split; [exact note_spares|]. split; [exact w0_proper|]. split; [exact (sample_apart _ _ w0_sample)|]. split; [exact (sample_names _ _ w0_sample)|].
  split; [exact w0_no_skipping|]. split; [apply records_in_step; exact (proj1 (proj2 w0_proper))|]. vm_compute. reflexivity.
Qed.

(** Not so if hooks call the base method before they hear that the call was refused: the object is changed, the record is not. *)
Definition hasty (accepts : list event -> event -> bool) : hooks := fun w hc =>
  match event_of w hc with
  | Some ev => if accepts (w_trace w) ev then default_outcome else mkOut true None [] (HRaise (refusal hc))
  | None => default_outcome
  end.
Definition w89h : world := fst (sync_from 20 (hasty accepts89) 1 0 base_class 1 false None w0).
Theorem C89_hasty_refuted : ~ forall fuel h dst src dc flags cb given name (accepts : list event -> event -> bool) w R,
  proper_dst w dst -> names_records name w dst -> hooks_write (not_attribute w dst) h -> no_skipping w dst ->
  (forall w hc ev, call_event w hc ev -> if accepts (w_trace w) ev then ho_base (h w hc) = true /\ ho_end (h w hc) = HReturn else ho_end (h w hc) <> HReturn) ->
  (forall d, uses fuel dst src dc flags cb given w d -> sets_no_identifier w dst (d_groups d) /\ gives_attributes w dst (d_groups d)) ->
  in_step R w dst ->
  let (w', r) := sync_from fuel h dst src dc flags cb given w in
  (forall x, r = Err x -> crud_exception x) -> in_step (driven name accepts (w_trace w) (new_events w w') R) w' dst.
Proof.
  intros H. specialize (H 20 (hasty accepts89) 1 0 base_class 1%N false None (name_of s_classes) accepts89 w0 (records_of w0 1) w0_proper (sample_names _ _ w0_sample)).
  assert (H' : in_step (driven (name_of s_classes) accepts89 (w_trace w0) (new_events w0 w89h) (records_of w0 1)) w89h 1).
  { unfold w89h. assert (X : exists d, snd (sync_from 20 (hasty accepts89) 1 0 base_class 1 false None w0) = Ok d) by (eexists; vm_compute; reflexivity).
    destruct X as (d & X). destruct (sync_from 20 (hasty accepts89) 1 0 base_class 1 false None w0) as [w' r]. cbn [fst snd] in *. subst r.
    apply H; [| |  | | |discriminate].
    - intros w hc k. unfold hasty. destruct (event_of w hc) as [ev|]; [destruct (accepts89 (w_trace w) ev)|]; intros [].
    - exact w0_no_skipping.
    - intros w hc ev E. assert (EV : event_of w hc = Some ev).
      { destruct hc; cbn in *; [now rewrite E|destruct E as (o & -> & ->); reflexivity|destruct E as (o & -> & ->); reflexivity]. }
      unfold hasty. rewrite EV. destruct (accepts89 (w_trace w) ev); cbn; [split; congruence|congruence].
    - apply step89; [reflexivity|vm_compute; reflexivity].
    - apply records_in_step. exact (proj1 (proj2 w0_proper)). }
  clear H. specialize (H' "device" "r1").
  assert (L : lookup w89h 1 "device" "r1" = Some 7) by (vm_compute; reflexivity).
  assert (V : option_map (fun o => (dget (o_vals o) "role", c_attributes (o_cls o))) (nth_error (w_heap w89h) 7) = Some (Some (VStr "edge"), ["role"; "serial"])) by (vm_compute; reflexivity).
  assert (RX : has (driven (name_of s_classes) accepts89 (w_trace w0) (new_events w0 w89h) (records_of w0 1)) ("device", "r1") = [None; Some (VStr "leaf"); None]) by (vm_compute; reflexivity).
  revert H' L V RX. generalize (driven (name_of s_classes) accepts89 (w_trace w0) (new_events w0 w89h) (records_of w0 1)) as R. generalize w89h as w. intros w R H' L V RX.
  rewrite L in H'. destruct H' as (o & x & Ho & ER & AX). rewrite Ho in V. cbn [option_map] in V. injection V as V1 V2.
  unfold has in RX. cbn [fst snd] in RX. rewrite ER in RX. cbn [map] in RX. injection RX as _ RX _. rewrite (AX "role") in RX by (rewrite V2; now left). congruence.
Qed.
Print Assumptions C89_hasty_refuted.

(** Nor if objects with SKIP_CHILDREN_ON_DELETE are deleted: the children go without a call, and the remote system still has them. *)
Definition w89s : world :=
  mkWorld [mk_site "nyc" "east" ["r1"] 2 1; mk_device "r1" "leaf" [] 0 1]
          [mk_ad "src" (SLocal []); mk_ad "dst" (SLocal [("site", [("nyc", 0)]); ("device", [("r1", 1)])])] [] [].
Definition w89t : world := fst (sync_from 20 (relay (fun _ _ => true)) 1 0 base_class 1 false None w89s).
Lemma w89s_proper : proper_dst w89s 1.
Proof. apply properb_ok; reflexivity. Qed.
Lemma w89s_sample c : dst_class w89s 1 c -> In c [c_site; c_device; c_intf].
Proof.
  apply (sample_class w89s 1 (mk_ad "dst" (SLocal [("site", [("nyc", 0)]); ("device", [("r1", 1)])])) c); [exact (proj1 w89s_proper)|reflexivity|reflexivity|].
  vm_compute (stored_objs w89s 1). do 2 (constructor; [cbn; auto|]). constructor.
Qed.
Theorem C89_skip_refuted : ~ forall fuel h dst src dc flags cb given name accepts w R,
  proper_dst w dst -> names_records name w dst -> follow_remote accepts h -> hooks_write (not_attribute w dst) h ->
  (forall d, uses fuel dst src dc flags cb given w d -> sets_no_identifier w dst (d_groups d) /\ gives_attributes w dst (d_groups d)) ->
  in_step R w dst ->
  let (w', r) := sync_from fuel h dst src dc flags cb given w in
  (forall x, r = Err x -> crud_exception x) -> in_step (driven name accepts (w_trace w) (new_events w w') R) w' dst.
Proof.
  intros H. specialize (H 20 (relay (fun _ _ => true)) 1 0 base_class 1%N false None (name_of s_classes) (fun _ _ => true) w89s (records_of w89s 1) w89s_proper (sample_names _ _ w89s_sample) (relay_follows _) (relay_writes _ _)).
  assert (H' : in_step (driven (name_of s_classes) (fun _ _ => true) (w_trace w89s) (new_events w89s w89t) (records_of w89s 1)) w89t 1).
  { unfold w89t. assert (X : okb (snd (sync_from 20 (relay (fun _ _ => true)) 1 0 base_class 1 false None w89s)) = true) by (vm_compute; reflexivity).
    destruct (sync_from 20 (relay (fun _ _ => true)) 1 0 base_class 1 false None w89s) as [w' [d|x]]; [|discriminate X]. cbn [fst].
    apply H; [| |discriminate].
    - apply step89; [reflexivity|vm_compute; reflexivity].
    - apply records_in_step. exact (proj1 (proj2 w89s_proper)). }
  clear H. specialize (H' "device" "r1").
  assert (L : lookup w89t 1 "device" "r1" = None) by (vm_compute; reflexivity).
  assert (RX : has (driven (name_of s_classes) (fun _ _ => true) (w_trace w89s) (new_events w89s w89t) (records_of w89s 1)) ("device", "r1") = [None; Some (VStr "leaf"); None]) by (vm_compute; reflexivity).
  revert H' L RX. generalize (driven (name_of s_classes) (fun _ _ => true) (w_trace w89s) (new_events w89s w89t) (records_of w89s 1)) as R. generalize w89t as w. intros w R H' L RX.
  rewrite L in H'. unfold has in RX. cbn [fst snd] in RX. rewrite H' in RX. discriminate.
Qed.
Print Assumptions C89_skip_refuted.
