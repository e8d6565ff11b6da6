(** * PropLoad: dict / load_from_dict (C51). *)
From Verif Require Import LoadFacts SyncSample Samples.

(** C51, LocalStore.  [excl] is the argument exclude_defaults.  Loading changes
    nothing but the receiving adapter; types the class does not declare are
    not loaded. *)
Theorem C51_round_trip : forall (excl : bool) (w : world) (a b : aid) (ad adb : adapter),
  local_ok w a -> keyed w a -> nth_error (w_ads w) a = Some ad -> adapter_ok ad ->
  (forall t u r o c, lookup w a t u = Some r -> nth_error (w_heap w) r = Some o -> dget (ad_classes ad) t = Some c ->
     o_cls o = c /\ well_shaped o /\ (excl = true -> ids_as_default o)) ->
  nth_error (w_ads w) b = Some adb -> ad_store adb = SLocal [] -> ad_top adb = ad_top ad -> ad_classes adb = ad_classes ad ->
  exists data w', ad_dict a excl w = (w, Ok data) /\ load_from_dict b data w = (w', Ok tt) /\
    (forall t u, dget (ad_classes ad) t = None -> lookup w' b t u = None) /\
    (forall t u c, dget (ad_classes ad) t = Some c -> lookup w a t u = None -> lookup w' b t u = None) /\
    (forall t u c r o, dget (ad_classes ad) t = Some c -> lookup w a t u = Some r -> nth_error (w_heap w) r = Some o ->
       exists r' o', lookup w' b t u = Some r' /\ nth_error (w_heap w') r' = Some o' /\ reloaded o o') /\
    framed b w w' /\ (forall r, r < length (w_heap w) -> nth_error (w_heap w') r = nth_error (w_heap w) r).
Proof. exact round_trip. Qed.
Print Assumptions C51_round_trip.

(** What dict() gives: an entry for each object and no other, with all fields, or with exclude_defaults those that are not
    the default. *)
Theorem C51_dict : forall (excl : bool) (w : world) (a : aid), local_ok w a -> keyed w a ->
  (forall t u r o, lookup w a t u = Some r -> nth_error (w_heap w) r = Some o -> well_shaped o) ->
  exists data, ad_dict a excl w = (w, Ok data) /\ forall t u,
    match lookup w a t u with
    | None => dget (match dget data t with Some b => b | None => [] end) u = None
    | Some r => exists o b du, nth_error (w_heap w) r = Some o /\ dget data t = Some b /\ dget b u = Some du /\ dumps excl o du
    end.
Proof. exact dict_is. Qed.
Print Assumptions C51_dict.

(** The source sample, and an adapter of the same class with an empty store *)
Definition w_load : world :=
  mkWorld heap0 [mk_ad "src" (SLocal (src_data ++ [("rack", [])])); mk_ad "copy" (SLocal [])] [] [].
Example C51_example :
  (local_ok w_load 0 /\ keyed w_load 0 /\ adapter_ok (mk_ad "src" (SLocal (src_data ++ [("rack", [])]))) /\
   forall t u r o c, lookup w_load 0 t u = Some r -> nth_error (w_heap w_load) r = Some o -> dget s_classes t = Some c ->
     o_cls o = c /\ well_shaped o /\ (true = true -> ids_as_default o)) /\
  snd (ad_dict 0 true w_load) =
    Ok [("site", [("nyc", mkDump [("name", VStr "nyc"); ("region", VStr "east")] [("devices", ["r1"; "r2"])] None);
                  ("sfo", mkDump [("name", VStr "sfo"); ("region", VStr "west")] [] None)]);
        ("device", [("r1", mkDump [("name", VStr "r1"); ("role", VStr "edge")] [("interfaces", ["r1__eth0"; "r1__eth1"])] None);
                    ("r2", mkDump [("name", VStr "r2"); ("role", VStr "core")] [] None)]);
        ("interface", [("r1__eth0", mkDump [("device_name", VStr "r1"); ("name", VStr "eth0"); ("mtu", VInt 9000)] [] None);
                       ("r1__eth1", mkDump [("device_name", VStr "r1"); ("name", VStr "eth1")] [] None)]);
        ("rack", [])] /\
  match snd (ad_dict 0 true w_load) with
  | Ok data => w_ads (fst (load_from_dict 1 data w_load)) =
      [mk_ad "src" (SLocal (src_data ++ [("rack", [])]));
       mk_ad "copy" (SLocal [("site", [("nyc", 13); ("sfo", 14)]); ("device", [("r1", 15); ("r2", 16)]);
                             ("interface", [("r1__eth0", 17); ("r1__eth1", 18)])])] /\
      nth_error (w_heap (fst (load_from_dict 1 data w_load))) 18 = Some (mk_intf "r1" "eth1" 1500 0 1)
  | Err _ => False
  end.
Proof.
  split; [|split; [reflexivity|vm_compute; split; reflexivity]].
  split; [apply localb_ok; reflexivity|]. split; [apply keyedb_ok; reflexivity|]. split.
  { split; [apply nodupb_ok; reflexivity|]. split; [intros x [<-|[]]; now left|].
    intros n c H. simpl in H. repeat match type of H with context [if String.eqb ?x ?y then _ else _] => destruct (String.eqb_spec x y) end;
      try discriminate; injection H as <-; subst; reflexivity. }
  intros t u r o c L H C. apply lookup_entry in L. vm_compute in L.
  repeat (destruct L as [L|L]; [injection L as <- <- <-; injection H as <-; injection C as <-;
    (split; [reflexivity|]; split; [split; [reflexivity|]; split; [apply nodupb_ok; reflexivity|];
      split; [reflexivity|apply nodupb_ok; reflexivity]|]);
    intros _ k v dv HK HV HD _; simpl in HK, HD; repeat (destruct HK as [HK|HK]; [subst k; intuition discriminate|]); destruct HK|]).
  destruct L.
Qed.

(** The condition on identifiers is needed: an identifier that equals its
    default but is rendered differently (True == 1) is dropped by
    exclude_defaults and the object comes back under another key. *)
Definition c_opt : cls := mkCls "node" ["num"] [] [] [] [("num", Some (VInt 1))] [] 0.
Definition w_opt : world :=
  mkWorld [mkObj c_opt [("num", VBool true)] [] 0 None StSuccess ""]
    [mkAdapter "a" "T" ["node"] [("node", c_opt)] (SLocal [("node", [("True", 0)])]);
     mkAdapter "b" "T" ["node"] [("node", c_opt)] (SLocal [])] [] [].
Theorem C51_default_identifier_refuted :
  exists w data, local_ok w 0 /\ keyed w 0 /\ lookup w 0 "node" "True" <> None /\ ad_dict 0 true w = (w, Ok data) /\
    snd (load_from_dict 1 data w) = Ok tt /\ lookup (fst (load_from_dict 1 data w)) 1 "node" "True" = None.
Proof.
  exists w_opt. eexists. split; [apply localb_ok; reflexivity|]. split; [apply keyedb_ok; reflexivity|].
  split; [discriminate|]. split; [reflexivity|]. split; reflexivity.
Qed.
Print Assumptions C51_default_identifier_refuted.

(** ... and so is a top_level without repeats: the second pass adds every object again. *)
Definition w_twice : world :=
  mkWorld [mkObj c_opt [("num", VInt 2)] [] 0 None StSuccess ""]
    [mkAdapter "a" "T" ["node"; "node"] [("node", c_opt)] (SLocal [("node", [("2", 0)])]);
     mkAdapter "b" "T" ["node"; "node"] [("node", c_opt)] (SLocal [])] [] [].
Theorem C51_repeated_top_level_refuted :
  exists w data, local_ok w 0 /\ keyed w 0 /\ ad_dict 0 true w = (w, Ok data) /\
    snd (load_from_dict 1 data w) = Err ObjectAlreadyExists.
Proof.
  exists w_twice. eexists. split; [apply localb_ok; reflexivity|]. split; [apply keyedb_ok; reflexivity|].
  split; reflexivity.
Qed.
Print Assumptions C51_repeated_top_level_refuted.
