(** * PropStore: the object store (C21-C27). *)
From Verif Require Import StoreMore Samples.

(** C21.  After any history of calls (successful or failing, with objects
    changed in place in between) on a new LocalStore, every call answers what
    the register of (type, uid, object) entries says. *)
Theorem C21_store_is_a_map : forall (w : world) (a : aid) (ops : list sop),
  fresh_local w a -> snd (exec_all a ops w) = snd (spec_all a ops w []).
Proof. intros w a ops H. exact (proj1 (history a ops w [] (fresh_RegOf w a H))). Qed.
Print Assumptions C21_store_is_a_map.

(** What the register means: the last write to a key decides. *)
Theorem C21_register : forall (l : reg) (t u t' u' : string) (r : ref), NoDup (map fst l) ->
  reg_find (reg_put l t u r) t u = Some r /\
  reg_find (reg_del l t u) t u = None /\
  ((t', u') <> (t, u) ->
     reg_find (reg_put l t u r) t' u' = reg_find l t' u' /\ reg_find (reg_del l t u) t' u' = reg_find l t' u').
Proof. exact register_laws. Qed.
Print Assumptions C21_register.

Definition hist0 : list sop :=
  [SAdd 0; SAdd 1; SGet "site" "nyc"; SAdd 6; SUpdate 6; SGet "site" "nyc"; SRemove 0; SGetOrNone "site" "nyc";
   SGet "site" "nyc"; SGetAll "device"; SByUids ["r1"; "r9"] "device"; SCount].
Definition w_new : world := mkWorld heap0 [mk_ad "src" (SLocal [])] [] [].
Example C21_example : fresh_local w_new 0 /\
  snd (exec_all 0 hist0 w_new) =
  [Ok OUnit; Ok OUnit; Ok (ORef 0); Err ObjectAlreadyExists; Ok OUnit; Ok (ORef 6); Ok OUnit; Ok (OOpt None);
   Err ObjectNotFound; Ok (ORefs [1]); Err ObjectNotFound; Ok (ONat 1)].
Proof. split; [exists (mk_ad "src" (SLocal [])); split; reflexivity|reflexivity]. Qed.

(** C22 *)
Theorem C22_add_stored : forall (a : aid) (r r' : ref) (w : world) (o : obj) (u : string),
  nth_error (w_heap w) r = Some o -> get_unique_id o = Ok u -> lookup w a (get_type o) u = Some r' ->
  (r' = r -> st_add a r w = (w, Ok tt)) /\
  (r' <> r -> st_add a r w = (w, Err ObjectAlreadyExists)).
Proof. exact add_stored. Qed.
Print Assumptions C22_add_stored.

Theorem C22_add_new : forall (a : aid) (r : ref) (w : world) (o : obj) (u : string), has_local w a ->
  nth_error (w_heap w) r = Some o -> get_unique_id o = Ok u -> lookup w a (get_type o) u = None ->
  exists w', st_add a r w = (w', Ok tt) /\ placed a w w' r (get_type o) u /\ w_trace w' = w_trace w.
Proof. exact add_new. Qed.
Print Assumptions C22_add_new.

Example C22_example : lookup w0 0 "site" "nyc" = Some 0 /\
  st_add 0 0 w0 = (w0, Ok tt) /\ st_add 0 6 w0 = (w0, Err ObjectAlreadyExists) /\
  lookup w0 0 "site" "lon" = None /\ lookup (fst (st_add 0 12 w0)) 0 "site" "lon" = Some 12.
Proof. repeat split. Qed.

(** C23.  Fuel at least the number of stored objects is enough (Python needs
    that many frames at most), also for cyclic child references; so is fuel
    above the number of generations below the object. *)
Theorem C23_remove_children : forall (fuel : nat) (w : world) (a : aid) (t u : string) (r : ref),
  local_ok w a -> keyed w a -> lookup w a t u = Some r -> limit_ok w a fuel (t, u) ->
  exists w', st_remove fuel a r true w = (w', Ok tt) /\
    (forall t' u', reaches w a (t, u) (t', u') -> lookup w' a t' u' = None) /\
    (forall t' u', ~ reaches w a (t, u) (t', u') -> lookup w' a t' u' = lookup w a t' u') /\
    same_but_adapter (w_heap w) (w_heap w') /\ local_ok w' a /\ keyed w' a /\ framed a w w'.
Proof. exact cascade_removes. Qed.
Print Assumptions C23_remove_children.

(** a child cycle a -> b -> a, a dangling reference, and a bystander *)
Definition c_node : cls := mkCls "node" ["name"] [] [] [("node", "next")] [("name", None)] ["next"] 0.
Definition mk_node (n : string) (next : list string) : obj :=
  mkObj c_node [("name", VStr n)] [("next", next)] 0 (Some 0) StSuccess "".
Definition w_cycle : world :=
  mkWorld [mk_node "a" ["b"; "zz"]; mk_node "b" ["a"]; mk_node "c" ["b"]]
    [mk_ad "src" (SLocal [("node", [("a", 0); ("b", 1); ("c", 2)])])] [] [].
Example C23_example : local_ok w_cycle 0 /\ keyed w_cycle 0 /\ lookup w_cycle 0 "node" "a" = Some 0 /\
  count_all w_cycle 0 = 3 /\
  snd (st_remove 3 0 0 true w_cycle) = Ok tt /\
  w_ads (fst (st_remove 3 0 0 true w_cycle)) = [mk_ad "src" (SLocal [("node", [("c", 2)])])].
Proof.
  split; [|split; [|repeat split]].
  - eexists. eexists. split; [reflexivity|]. split; [reflexivity|]. split.
    + repeat constructor. intros [].
    + intros m b [E|[]]. injection E as <- <-. simpl. repeat constructor; simpl; intuition discriminate.
  - intros t u r F. unfold lookup in F. simpl in F. unfold bucket in F. simpl in F.
    destruct (String.eqb t "node") eqn:T; [|discriminate]. apply String.eqb_eq in T. subst t. simpl in F.
    destruct (String.eqb u "a") eqn:U; [apply String.eqb_eq in U; subst u; injection F as <-|].
    { eexists. split; [reflexivity|]. split; [reflexivity|]. split; [reflexivity|].
      intros t' f [E|[]]. injection E as <- <-. discriminate. }
    clear U. destruct (String.eqb u "b") eqn:U; [apply String.eqb_eq in U; subst u; injection F as <-|].
    { eexists. split; [reflexivity|]. split; [reflexivity|]. split; [reflexivity|].
      intros t' f [E|[]]. injection E as <- <-. discriminate. }
    clear U. destruct (String.eqb u "c") eqn:U; [apply String.eqb_eq in U; subst u; injection F as <-|discriminate].
    eexists. split; [reflexivity|]. split; [reflexivity|]. split; [reflexivity|].
    intros t' f [E|[]]. injection E as <- <-. discriminate.
Qed.

(** C24, at the end of any history; [reg_type] lists a type's entries in order of insertion *)
Theorem C24_counts_agree : forall (a : aid) (ops : list sop) (w : world), fresh_local w a ->
  let w' := fst (exec_all a ops w) in
  let l := fst (spec_all a ops w []) in
  exists names,
    st_get_all_model_names a w' = (w', Ok names) /\ NoDup names /\
    (forall t u r, lookup w' a t u = Some r -> In t names) /\
    st_count a None w' = (w', Ok (count_all w' a)) /\
    count_all w' a = list_sum (map (fun m => length (reg_type l m)) names) /\
    (forall m, snd (st_get_all a m w') = Ok (reg_type l (spec_name m))) /\
    (forall c, snd (st_count a (Some (MClass c)) w') = Ok (length (reg_type l (c_modelname c)))) /\
    (forall m, m <> "" -> snd (st_count a (Some (MName m)) w') = Ok (length (reg_type l m))).
Proof. exact counts_agree. Qed.
Print Assumptions C24_counts_agree.

(** The exception for the empty model name is needed: count("") counts everything. *)
Theorem C24_empty_name_refuted :
  exists w a, local_ok w a /\ snd (st_count a (Some (MName "")) w) <> Ok 0 /\ snd (st_get_all a (MName "") w) = Ok [].
Proof.
  exists w_cycle, 0. split; [exact (proj1 C23_example)|]. split; [vm_compute; discriminate|reflexivity].
Qed.
Print Assumptions C24_empty_name_refuted.

Example C24_example :
  let w' := fst (exec_all 0 [SAdd 0; SAdd 5; SAdd 1; SAdd 12; SRemove 5; SAdd 5; SGet "rack" "x"] w_new) in
  snd (st_get_all 0 (MName "site") w') = Ok [0; 12; 5] /\
  snd (st_get_all_model_names 0 w') = Ok ["site"; "device"; "rack"] /\
  count_all w' 0 = 4 /\ snd (st_count 0 (Some (MClass c_site)) w') = Ok 3.
Proof. repeat split. Qed.

(** C25 (LocalStore; for RedisStore see PropRedis) *)
Theorem C25_get_by_uids : forall (a : aid) (us : list string) (t : string) (w : world), local_ok w a ->
  (forall rs, snd (st_get_by_uids a us (MName t) w) = Ok rs <-> Forall2 (fun u r => lookup w a t u = Some r) us rs) /\
  (forall e, snd (st_get_by_uids a us (MName t) w) = Err e ->
     e = ObjectNotFound /\ exists u, In u us /\ lookup w a t u = None).
Proof. exact by_uids_local. Qed.
Print Assumptions C25_get_by_uids.

Example C25_example :
  snd (st_get_by_uids 0 ["c"; "a"; "c"] (MName "node") w_cycle) = Ok [2; 0; 2] /\
  snd (st_get_by_uids 0 ["c"; "zz"] (MName "node") w_cycle) = Err ObjectNotFound.
Proof. repeat split. Qed.

(** C26, key present *)
Theorem C26_get_or_present : forall (a : aid) (w : world) (r : ref) (u : string),
  (forall c ids attrs, create_unique_id c ids = Ok u -> lookup w a (c_modelname c) u = Some r ->
     st_get_or_instantiate a c ids attrs w = (w, Ok (r, false))) /\
  (forall q o, nth_error (w_heap w) q = Some o -> get_unique_id o = Ok u -> lookup w a (get_type o) u = Some r ->
     st_get_or_add_model_instance a q w = (w, Ok (r, false))).
Proof. exact get_or_present. Qed.
Print Assumptions C26_get_or_present.

(** key absent *)
Theorem C26_get_or_absent : forall (a : aid) (w : world) (u : string), has_local w a ->
  (forall c ids attrs kw o, ids_are_fields c -> create_unique_id c ids = Ok u ->
     lookup w a (c_modelname c) u = None ->
     merge_kw ids attrs = Ok kw -> instantiate c kw [] None None = Ok o ->
     exists w', st_get_or_instantiate a c ids attrs w = (w', Ok (length (w_heap w), true)) /\ created a w w' o u) /\
  (forall r o, nth_error (w_heap w) r = Some o -> get_unique_id o = Ok u -> lookup w a (get_type o) u = None ->
     exists w', st_get_or_add_model_instance a r w = (w', Ok (r, true)) /\ placed a w w' r (get_type o) u).
Proof. exact get_or_absent. Qed.
Print Assumptions C26_get_or_absent.

Theorem C26_update_or_present : forall (a : aid) (w : world) (r : ref) (u : string) (stored : obj),
  nth_error (w_heap w) r = Some stored ->
  (forall c ids attrs, create_unique_id c ids = Ok u -> lookup w a (c_modelname c) u = Some r ->
     NoDup (dkeys attrs) -> incl (dkeys attrs) (dkeys (o_vals stored)) ->
     exists w', st_update_or_instantiate a c ids attrs w = (w', Ok (r, false)) /\ attrs_set w w' r attrs) /\
  (forall q o, nth_error (w_heap w) q = Some o -> get_unique_id o = Ok u -> lookup w a (get_type o) u = Some r ->
     NoDup (dkeys (o_vals o)) -> incl (dkeys (get_attrs o)) (dkeys (o_vals stored)) ->
     exists w', st_update_or_add_model_instance a q w = (w', Ok (r, false)) /\ attrs_set w w' r (get_attrs o)).
Proof. exact update_or_present. Qed.
Print Assumptions C26_update_or_present.

Theorem C26_update_or_absent : forall (a : aid) (w : world) (u : string), has_local w a ->
  (forall c ids attrs kw o, ids_are_fields c -> create_unique_id c ids = Ok u ->
     lookup w a (c_modelname c) u = None ->
     merge_kw ids attrs = Ok kw -> instantiate c kw [] None None = Ok o ->
     NoDup (dkeys attrs) -> incl (dkeys attrs) (map fst (c_fields c)) ->
     exists w1 w', st_update_or_instantiate a c ids attrs w = (w', Ok (length (w_heap w), true)) /\
       created a w w1 o u /\ attrs_set w1 w' (length (w_heap w)) attrs) /\
  (forall r o, nth_error (w_heap w) r = Some o -> get_unique_id o = Ok u -> lookup w a (get_type o) u = None ->
     NoDup (dkeys (o_vals o)) ->
     exists w1 w', st_update_or_add_model_instance a r w = (w', Ok (r, true)) /\
       placed a w w1 r (get_type o) u /\ attrs_set w1 w' r (get_attrs o)).
Proof. exact update_or_absent. Qed.
Print Assumptions C26_update_or_absent.

Example C26_example :
  st_get_or_instantiate 0 c_site [("name", VStr "nyc")] [("region", VStr "x")] w0 = (w0, Ok (0, false)) /\
  (let (w', x) := st_update_or_instantiate 0 c_site [("name", VStr "nyc")] [("region", VStr "x")] w0 in
     x = Ok (0, false) /\ option_map o_vals (nth_error (w_heap w') 0) = Some [("name", VStr "nyc"); ("region", VStr "x"); ("note", VNone)]) /\
  (let (w', x) := st_update_or_instantiate 0 c_site [("name", VStr "par")] [("region", VStr "x")] w0 in
     x = Ok (13, true) /\ lookup w' 0 "site" "par" = Some 13 /\
     option_map o_vals (nth_error (w_heap w') 13) = Some [("name", VStr "par"); ("region", VStr "x"); ("note", VNone)]) /\
  (let (w', x) := st_update_or_add_model_instance 0 7 w0 in
     x = Ok (1, false) /\ option_map o_vals (nth_error (w_heap w') 1) = Some [("name", VStr "r1"); ("role", VStr "leaf"); ("serial", VNone)]).
Proof. repeat split. Qed.

(** C27.  The adapter is cleared unless the object was the last one ... *)
Theorem C27_adapter_cleared : forall (a : aid) (r : ref) (w : world) (o : obj) (u : string), local_ok w a ->
  nth_error (w_heap w) r = Some o -> get_unique_id o = Ok u ->
  lookup w a (get_type o) u = Some r -> o_adapter o = Some a \/ o_adapter o = None ->
  exists w' o', st_remove 1 a r false w = (w', Ok tt) /\ lookup w' a (get_type o) u = None /\
    nth_error (w_heap w') r = Some o' /\
    (o_adapter o' = None <-> o_adapter o = None \/ 2 <= count_all w a).
Proof. exact adapter_cleared. Qed.
Print Assumptions C27_adapter_cleared.

(** ... and for the last one the property is false. *)
Theorem C27_last_object_refuted :
  exists w a r w' o', local_ok w a /\ st_remove 1 a r false w = (w', Ok tt) /\ count_all w' a = 0 /\
    nth_error (w_heap w') r = Some o' /\ o_adapter o' = Some a.
Proof.
  exists (mkWorld heap0 [mk_ad "src" (SLocal [("site", [("sfo", 5)])])] [] []), 0, 5. eexists. eexists.
  split; [|split; [reflexivity|repeat split]].
  eexists. eexists. split; [reflexivity|]. split; [reflexivity|]. split.
  - repeat constructor. intros [].
  - intros m b [E|[]]. injection E as <- <-. repeat constructor. intros [].
Qed.
Print Assumptions C27_last_object_refuted.

Example C27_example :
  count_all w_cycle 0 = 3 /\
  option_map o_adapter (nth_error (w_heap (fst (st_remove 1 0 2 false w_cycle))) 2) = Some None.
Proof. repeat split. Qed.
